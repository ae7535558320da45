(** C106: files cut short, writers that are killed, and running them again. *)
From Verif Require Import M_EnviBytes M_Chipper P_Chipper P_EnviBytes.
From Verif Require Import Text2 M_TextFiles M_NavFiles Spec_TextFiles Spec_NavFiles P_TextFiles P_NavFiles Prop_NavFiles M_Interrupted.
From Coq Require Import Lia.
Open Scope list_scope.
Open Scope nat_scope.

Lemma Forall_firstn {A} (P : A -> Prop) n (l : list A) : Forall P l -> Forall P (firstn n l).
Proof. intros H. rewrite <- (firstn_skipn n l) in H. apply Forall_app in H. apply H. Qed.
(* ------------------------- list files ----------------------------- *)
Lemma lines_cut ls : forall k, exists n part rest, n <= length ls /\
  firstn k (lines_text ls) = lines_text (firstn n ls) ++ part /\ nth n ls [] = part ++ rest.
Proof.
  induction ls as [|l ls IH]; intros k.
  - exists 0, [], []. rewrite firstn_nil. repeat split. apply le_n.
  - unfold lines_text. cbn [map concat]. fold (lines_text ls).
    destruct (Nat.le_gt_cases k (length l)) as [L|L].
    + exists 0, (firstn k l), (skipn k l). split; [lia|]. split; [|cbn [nth]; symmetry; apply firstn_skipn].
      cbn [firstn lines_text map concat app]. rewrite <- app_assoc, firstn_app. replace (k - length l) with 0 by lia. apply app_nil_r.
    + destruct (IH (k - S (length l))) as (n & part & rest & Hn & E & P).
      exists (S n), part, rest. split; [cbn; lia|]. split; [|exact P].
      rewrite firstn_app, firstn_all2 by (rewrite app_length; cbn; lia).
      rewrite app_length. cbn [length]. replace (k - (length l + 1)) with (k - S (length l)) by lia. rewrite E.
      cbn [firstn map concat]. rewrite <- !app_assoc. reflexivity.
Qed.
Lemma lines_text_app a b : lines_text (a ++ b) = lines_text a ++ lines_text b.
Proof. unfold lines_text. rewrite map_app, concat_app. reflexivity. Qed.
Lemma one_line_prefix a b : one_line (a ++ b) -> one_line a.
Proof. intros H. apply Forall_app in H. apply H. Qed.
Lemma one_line_nth ls n : Forall one_line ls -> one_line (nth n ls []).
Proof.
  intros H. destruct (Nat.lt_ge_cases n (length ls)) as [L|L]; [|rewrite nth_overflow by exact L; constructor].
  rewrite Forall_forall in H. apply H. apply nth_In. exact L.
Qed.

(** A list file of which only the first characters are there: reading it never fails, and gives
    the first entries, each right except perhaps for the last one, which is the beginning of the
    entry at that place *)
Theorem C106_list_cut : forall old l, l <> [] -> Forall one_line l ->
  exists content, write_text_list_to_file old l = (Some content, Ok tt) /\
  forall k, exists n part rest, n <= length l /\ nth n l [] = part ++ rest /\
    read_text_list_from_file (firstn k content) = firstn n l ++ match part with [] => [] | _ => [part] end.
Proof.
  intros old l Hne HF. destruct (exists_last Hne) as (m & z & ->).
  exists (lines_text m ++ z). split; [apply write_snoc|]. intros k.
  assert (E : exists k', firstn k (lines_text m ++ z) = firstn k' (lines_text (m ++ [z]))).
  { exists (Nat.min k (length (lines_text m ++ z))). rewrite lines_text_app. replace (lines_text [z]) with (z ++ [ch_nl]) by (unfold lines_text; cbn [map concat]; symmetry; apply app_nil_r). rewrite app_assoc.
    rewrite <- firstn_firstn, (firstn_app (length (lines_text m ++ z)) (lines_text m ++ z)), Nat.sub_diag, firstn_all, firstn_O, app_nil_r. reflexivity. }
  destruct E as (k' & ->). destruct (lines_cut (m ++ [z]) k') as (n & part & rest & Hn & E & P).
  exists n, part, rest. split; [exact Hn|]. split; [exact P|]. rewrite E. apply read_snoc.
  - apply Forall_firstn; exact HF.
  - apply (one_line_prefix part rest). rewrite <- P. apply one_line_nth; exact HF.
Qed.
Print Assumptions C106_list_cut.

(** An entry that is cut is not noticed *)
Theorem C106_list_cut_refuted :
  exists l content k, write_text_list_to_file None l = (Some content, Ok tt) /\
  read_text_list_from_file (firstn k content) = [txt "car"; txt "t"] /\ l = [txt "car"; txt "tree"; txt "water"].
Proof.
  exists [txt "car"; txt "tree"; txt "water"], (txt "car" ++ [ch_nl] ++ txt "tree" ++ [ch_nl] ++ txt "water"), 5.
  repeat split.
Qed.
Print Assumptions C106_list_cut_refuted.

(* ------------------------- EO files ------------------------------- *)
Lemma split_ws_cons c r : is_space c = false -> exists s ss, split_ws (c :: r) = (c :: s) :: ss.
Proof.
  intros H. cbn [split_ws]. rewrite H. destruct r as [|d r]; [eexists; eexists; reflexivity|].
  destruct (is_space d); [eexists; eexists; reflexivity|]. destruct (split_ws (d :: r)) as [|s ss]; eexists; eexists; reflexivity.
Qed.
Definition opt (t : text) : list text := match t with [] => [] | _ => [t] end.
Lemma split_ws_cut t1 t2 : exists m part rest, m <= length (split_ws (t1 ++ t2)) /\
  split_ws t1 = firstn m (split_ws (t1 ++ t2)) ++ opt part /\ nth m (split_ws (t1 ++ t2)) [] = part ++ rest.
Proof.
  induction t1 as [|c r IH].
  - exists 0, [], (nth 0 (split_ws ([] ++ t2)) []). repeat split. lia.
  - cbn [app]. destruct (is_space c) eqn:Hc.
    { cbn [split_ws]. rewrite Hc. exact IH. }
    destruct r as [|d r].
    + destruct (split_ws_cons c t2 Hc) as (s & ss & E). cbn [app]. rewrite E. exists 0, [c], s. cbn [split_ws]. rewrite Hc. repeat split. lia.
    + destruct (is_space d) eqn:Hd.
      * destruct IH as (m & part & rest & Hm & E & P). exists (S m), part, rest.
        assert (X : forall q, split_ws (c :: d :: q) = [c] :: split_ws (d :: q)) by (intros q; cbn [split_ws]; rewrite Hc, Hd; reflexivity).
        rewrite X. change ((d :: r) ++ t2) with (d :: r ++ t2) in *. rewrite X, E. repeat split; [cbn [length]; lia|exact P].
      * destruct IH as (m & part & rest & Hm & E & P).
        change ((d :: r) ++ t2) with (d :: r ++ t2) in *.
        destruct (split_ws_cons d r Hd) as (s & ss & E1). destruct (split_ws_cons d (r ++ t2) Hd) as (s' & ss' & E2).
        assert (X : forall q s ss, split_ws (d :: q) = s :: ss -> split_ws (c :: d :: q) = (c :: s) :: ss).
        { intros q u us Q. cbn [split_ws] in *. rewrite Hc, Hd in *. rewrite Q. reflexivity. }
        rewrite (X _ _ _ E1), (X _ _ _ E2). rewrite E1, E2 in E. rewrite E2 in P, Hm.
        destruct m as [|m].
        -- cbn [firstn app] in E. destruct part as [|p part]; [discriminate E|]. cbn [opt] in E. injection E as E3 E4 E5. subst.
           exists 0, (c :: p :: part), rest. cbn [nth] in P. split; [lia|]. split; [|cbn [nth]; rewrite P; reflexivity].
           reflexivity.
        -- cbn [firstn app] in E. injection E as -> ->. exists (S m), part, rest. cbn [length] in *. split; [lia|]. split; [reflexivity|exact P].
Qed.
Lemma good_prefix_nth {F} (tf : text -> option F) ts : forall j v, nth_error (good_prefix tf ts) j = Some v <->
  (exists t, nth_error ts j = Some t /\ tf t = Some v) /\ forall i, i < j -> exists t, nth_error ts i = Some t /\ tf t <> None.
Proof.
  induction ts as [|t ts IH]; intros j v.
  - cbn [good_prefix]. split; [destruct j; discriminate|]. intros [(t & H & _) _]. destruct j; discriminate H.
  - cbn [good_prefix]. destruct (tf t) as [x|] eqn:Et.
    + destruct j as [|j]; cbn [nth_error].
      * split; [intros [= <-]; split; [exists t; auto|intros; lia]|]. intros [(u & [= <-] & H) _]. congruence.
      * rewrite IH. split; intros [H1 H2]; (split; [exact H1|]).
        -- intros [|i] Hi; [exists t; split; [reflexivity|congruence]|]. cbn [nth_error]. apply H2. lia.
        -- intros i Hi. exact (H2 (S i) ltac:(lia)).
    + split; [destruct j; discriminate|]. intros [(u & H & Hu) H2]. destruct j as [|j].
      * cbn in H. congruence.
      * destruct (H2 0 ltac:(lia)) as (u' & [= <-] & Hn). contradiction.
Qed.
(** values of the beginning of a line: all but the last are values of the line *)
Lemma eo_values_cut {F} (tf : text -> option F) a b j : S j < length (eo_values tf a) ->
  nth_error (eo_values tf a) j = nth_error (eo_values tf (a ++ b)) j.
Proof.
  intros L. destruct (split_ws_cut a b) as (m & part & rest & Hm & E & _). unfold eo_values in *.
  set (T := split_ws (a ++ b)) in *. set (U := split_ws a) in *.
  destruct (nth_error (good_prefix tf (firstn 9 (skipn 1 U))) j) as [v|] eqn:Ev.
  2:{ apply nth_error_None in Ev. lia. }
  destruct (nth_error (good_prefix tf (firstn 9 (skipn 1 U))) (S j)) as [v'|] eqn:Ev'.
  2:{ apply nth_error_None in Ev'. lia. }
  symmetry. apply good_prefix_nth. apply good_prefix_nth in Ev, Ev'. destruct Ev as [(t & Ht & Hv) Hp]. destruct Ev' as [(t' & Ht' & _) _].
  assert (SJ : S j < 9 /\ S (S j) < length U).
  { assert (nth_error (firstn 9 (skipn 1 U)) (S j) <> None) as Q by congruence. apply nth_error_Some in Q.
    rewrite firstn_length, skipn_length in Q. lia. }
  assert (LU : S j < m /\ m <= length T).
  { split; [|exact Hm]. rewrite E in SJ. rewrite app_length, firstn_length in SJ. destruct part; cbn [opt length] in SJ; lia. }
  assert (X : forall i, i <= j -> nth_error (firstn 9 (skipn 1 U)) i = nth_error (firstn 9 (skipn 1 T)) i).
  { intros i Hi. rewrite !nth_error_firstn. destruct (Nat.ltb_spec i 9); [|reflexivity]. rewrite !nth_error_skipn.
    rewrite E, nth_error_app1 by (rewrite firstn_length; lia). rewrite nth_error_firstn. destruct (Nat.ltb_spec (1 + i) m); [reflexivity|lia]. }
  split.
  - exists t. rewrite <- X by lia. auto.
  - intros i Hi. rewrite <- X by lia. apply Hp. exact Hi.
Qed.

Section columns.
  Context {F : Type} (tf : text -> option F).
  Definition entry (j : nat) (line : text) : list F := match nth_error (eo_values tf line) j with Some v => [v] | None => [] end.
  Definition kind (line : text) : Prop := length (eo_values tf line) = 9 \/ eo_values tf line = [].
  Fixpoint complete (ls : list text) : nat :=
    match ls with [] => 0 | l :: r => (match eo_values tf l with [] => 0 | _ => 1 end) + complete r end.
  Lemma column_length j ls : j < 9 -> Forall kind ls -> length (flat_map (entry j) ls) = complete ls.
  Proof.
    intros Hj. induction 1 as [|l ls H _ IH]; [reflexivity|]. cbn [flat_map complete]. rewrite app_length, IH. f_equal.
    unfold entry. destruct H as [H|H].
    - destruct (nth_error (eo_values tf l) j) eqn:E; [|apply nth_error_None in E; lia]. destruct (eo_values tf l); [discriminate H|reflexivity].
    - rewrite H. destruct j; reflexivity.
  Qed.
  Lemma column_split j ls n : j < 9 -> Forall kind ls ->
    flat_map (entry j) (firstn n ls) = firstn (complete (firstn n ls)) (flat_map (entry j) ls).
  Proof.
    intros Hj H. rewrite <- (firstn_skipn n ls) at 3. rewrite flat_map_app.
    rewrite <- (column_length j (firstn n ls) Hj (Forall_firstn _ n ls H)).
    rewrite firstn_app, Nat.sub_diag, firstn_O, app_nil_r, firstn_all. reflexivity.
  Qed.
  Lemma column_next j ls n v : j < 9 -> Forall kind ls -> nth_error (eo_values tf (nth n ls [])) j = Some v ->
    nth_error (flat_map (entry j) ls) (complete (firstn n ls)) = Some v.
  Proof.
    intros Hj H E. assert (L : n < length ls).
    { destruct (Nat.lt_ge_cases n (length ls)) as [|L]; [assumption|]. rewrite nth_overflow in E by exact L. destruct j; discriminate E. }
    rewrite <- (firstn_skipn n ls) at 1. rewrite flat_map_app.
    rewrite <- (column_length j (firstn n ls) Hj (Forall_firstn _ n ls H)).
    rewrite nth_error_app2, Nat.sub_diag by lia.
    destruct (skipn n ls) as [|l r] eqn:Es.
    { apply (f_equal (@length _)) in Es. rewrite skipn_length in Es. cbn in Es. lia. }
    assert (l = nth n ls []) as ->.
    { rewrite <- (firstn_skipn n ls), Es, app_nth2; rewrite firstn_length; [|lia]. replace (n - Nat.min n (length ls)) with 0 by lia. reflexivity. }
    cbn [flat_map]. unfold entry at 1. rewrite E. reflexivity.
  Qed.
End columns.
Lemma eo_values_lf {F} (tf : text -> option F) l : one_line l -> eo_values tf (l ++ [ch_nl]) = eo_values tf l.
Proof. intros H. unfold eo_values. rewrite split_ws_filter_end by exact H. reflexivity. Qed.
Lemma eo_column_text {F} (tf : text -> option F) ls part j : Forall one_line ls -> one_line part ->
  nth j (eo_load tf (lines_text ls ++ part)) [] = flat_map (entry tf j) ls ++ entry tf j part.
Proof.
  intros Hl Hp. destruct (eo_load_columns tf (lines_text ls ++ part)) as [_ E]. rewrite E, file_lines_snoc by assumption.
  rewrite flat_map_app. f_equal.
  - clear E Hp. induction Hl as [|l ls H _ IH]; [reflexivity|]. cbn [map flat_map]. rewrite IH, eo_values_lf by exact H. reflexivity.
  - destruct part as [|c part]; [destruct j; reflexivity|]. cbn [flat_map]. apply app_nil_r.
Qed.

(** An EO file of which only the first characters are there (every line of the whole file has all
    nine numbers, or none): the records on complete lines are loaded as from the whole file, in all
    columns; the line that is cut adds one entry to each of the first m columns, and these are
    right too, except perhaps for the one in column m - 1 *)
Theorem C106_eo_cut : forall (F : Type) (to_float : text -> option F) ls k,
  Forall one_line ls ->
  Forall (fun line => length (eo_values to_float line) = 9 \/ eo_values to_float line = []) ls ->
  exists n m, m <= 9 /\
  forall j, j < 9 -> exists extra,
    nth j (eo_load to_float (firstn k (lines_text ls))) [] =
      firstn n (nth j (eo_load to_float (lines_text ls)) []) ++ extra /\
    n <= length (nth j (eo_load to_float (lines_text ls)) []) /\
    length extra = (if Nat.ltb j m then 1 else 0) /\
    (S j < m -> firstn 1 (skipn n (nth j (eo_load to_float (lines_text ls)) [])) = extra).
Proof.
  intros F tf ls k Hl HK. destruct (lines_cut ls k) as (n & part & rest & Hn & E & P).
  assert (Hp : one_line part) by (apply (one_line_prefix part rest); rewrite <- P; apply one_line_nth; exact Hl).
  exists (complete tf (firstn n ls)), (length (eo_values tf part)). split; [apply eo_values_length|].
  intros j Hj. exists (entry tf j part). rewrite E, eo_column_text by (try apply Forall_firstn; assumption).
  assert (W : nth j (eo_load tf (lines_text ls)) [] = flat_map (entry tf j) ls).
  { rewrite <- (app_nil_r (lines_text ls)), eo_column_text by (assumption || constructor).
    unfold entry at 2. change (eo_values tf []) with (@nil F). destruct j; apply app_nil_r. }
  rewrite W. split; [rewrite (column_split tf j ls n Hj HK); reflexivity|]. split.
  { rewrite (column_length tf j ls Hj HK). rewrite <- (firstn_skipn n ls) at 2.
    clear. induction (firstn n ls) as [|l r IH]; cbn [app complete]; lia. }
  split.
  { unfold entry. destruct (nth_error (eo_values tf part) j) eqn:Ej.
    - assert (j < length (eo_values tf part)) by (apply nth_error_Some; congruence). destruct (Nat.ltb_spec j (length (eo_values tf part))); [reflexivity|lia].
    - apply nth_error_None in Ej. destruct (Nat.ltb_spec j (length (eo_values tf part))); [lia|reflexivity]. }
  intros L. unfold entry at 2. destruct (nth_error (eo_values tf part) j) as [v|] eqn:Ej; [|apply nth_error_None in Ej; lia].
  assert (Q : nth_error (eo_values tf (nth n ls [])) j = Some v).
  { rewrite P, <- (eo_values_cut tf part rest j L). exact Ej. }
  pose proof (column_next tf j ls n v Hj HK Q) as X. set (c := complete tf (firstn n ls)) in *.
  rewrite <- (firstn_skipn c (flat_map (entry tf j) ls)) in X.
  assert (Lc : length (firstn c (flat_map (entry tf j) ls)) = c).
  { rewrite firstn_length. apply Nat.min_l. assert (c < length (flat_map (entry tf j) ls)); [|lia].
    rewrite firstn_skipn in X. apply nth_error_Some. congruence. }
  rewrite nth_error_app2, Lc, Nat.sub_diag in X by lia.
  destruct (skipn c (flat_map (entry tf j) ls)) as [|u us]; [discriminate X|]. cbn in X. injection X as ->. reflexivity.
Qed.
Print Assumptions C106_eo_cut.

(* --------------------- killed chip writers ------------------------ *)
Lemma do_writes_app w a b : do_writes w (a ++ b) = do_writes (do_writes w a) b.
Proof. apply fold_left_app. Qed.
Lemma do_writes_other l : forall w p, ~ In p (map fst l) -> do_writes w l p = w p.
Proof.
  induction l as [|[n f] l IH]; intros w p H; [reflexivity|]. cbn [map fst] in H. unfold do_writes. cbn [fold_left fst snd]. fold (do_writes (bfs_write w n f) l).
  rewrite IH by (intros I; apply H; right; exact I). apply bfs_write_other. intros ->. apply H. left; reflexivity.
Qed.
(** what a name that is written holds at the end does not depend on what was there before *)
Lemma do_writes_same l : forall w w' p, In p (map fst l) -> do_writes w l p = do_writes w' l p.
Proof.
  induction l as [|[n f] l IH]; intros w w' p H; [destruct H|]. unfold do_writes. cbn [fold_left fst snd].
  fold (do_writes (bfs_write w n f) l). fold (do_writes (bfs_write w' n f) l).
  destruct (in_dec (fun a b => list_eq_dec ascii_dec a b) p (map fst l)) as [I|I]; [apply IH; exact I|].
  rewrite !do_writes_other by exact I. destruct H as [H|H]; [|contradiction]. cbn in H. subst n. rewrite !bfs_write_same. reflexivity.
Qed.
Lemma killed_other w l n k p : ~ In p (map fst l) -> killed_write w l n k p = w p.
Proof.
  intros H. unfold killed_write. destruct (nth_error l n) as [[q bs]|] eqn:E.
  - rewrite bfs_write_other.
    + apply do_writes_other. intros I. apply H. apply in_map_iff in I. destruct I as (x & Hx & I). apply in_map_iff. exists x. split; [exact Hx|].
      rewrite <- (firstn_skipn n l). apply in_or_app. left; exact I.
    + intros ->. apply H. apply nth_error_In in E. apply (in_map fst) in E. exact E.
  - apply do_writes_other; exact H.
Qed.
Lemma write_again w l n k p : do_writes (killed_write w l n k) l p = do_writes w l p.
Proof.
  destruct (in_dec (fun a b => list_eq_dec ascii_dec a b) p (map fst l)) as [I|I]; [apply do_writes_same; exact I|].
  rewrite !do_writes_other by exact I. apply killed_other; exact I.
Qed.
Lemma do_writes_nth l : NoDup (map fst l) -> forall w i p f, nth_error l i = Some (p, f) -> do_writes w l p = Some f.
Proof.
  intros ND w i p f E. apply nth_error_split in E. destruct E as (a & b & -> & _).
  rewrite do_writes_app. unfold do_writes at 1. cbn [fold_left fst snd]. fold (do_writes (bfs_write (do_writes w a) p f) b).
  rewrite map_app in ND. cbn [map fst] in ND. apply NoDup_remove_2 in ND.
  rewrite do_writes_other by (intros I; apply ND; apply in_or_app; right; exact I). apply bfs_write_same.
Qed.
Lemma firstn_map_fst {A B} (l : list (A * B)) n : map fst (firstn n l) = firstn n (map fst l).
Proof. revert n; induction l; intros [|n]; cbn; f_equal; auto. Qed.

(** Chips written under generated names, killed while the n-th one is written: the ones before it
    are complete, of this one some first bytes are there, later ones and all other files are as
    they were *)
Theorem C106_chips_killed : forall A encode dir base fmt ra nb (l : list (list (list (list A)))) w n k,
  exists files, write_chips_to_disk dir base fmt None ra nb (Chips4 l) = (files, Ok tt) /\
  let w' := killed_write w (fst (chip_writes encode dir base fmt None ra nb (Chips4 l))) n k in
  (forall i p chip, nth_error files i = Some (p, chip) ->
     w' p = if Nat.ltb i n then Some (encode p chip)
            else if Nat.eqb i n then Some (firstn k (encode p chip)) else w p) /\
  forall p, ~ In p (map fst files) -> w' p = w p.
Proof.
  intros A encode dir base fmt ra nb l w n k.
  destruct (write_names_distinct dir base fmt ra nb l) as (files & E & ND & _). exists files. split; [exact E|].
  unfold chip_writes. rewrite E. cbn [fst]. set (ws := map (fun pc => (fst pc, encode (fst pc) (snd pc))) files).
  assert (MF : map fst ws = map fst files) by (unfold ws; rewrite map_map; reflexivity).
  assert (N : forall i p chip, nth_error files i = Some (p, chip) -> nth_error ws i = Some (p, encode p chip)).
  { intros i p chip H. unfold ws. rewrite nth_error_map, H. reflexivity. }
  assert (D : forall i i' p c c', nth_error files i = Some (p, c) -> nth_error files i' = Some (p, c') -> i = i').
  { intros i i' p c c' H H'. apply (proj1 (NoDup_nth_error (map fst files)) ND).
    - rewrite map_length. apply nth_error_Some. congruence.
    - rewrite !nth_error_map, H, H'. reflexivity. }
  cbv zeta. split.
  - intros i p chip H. unfold killed_write. destruct (nth_error ws n) as [[q bs]|] eqn:En.
    + assert (Hq : exists c, nth_error files n = Some (q, c) /\ bs = encode q c).
      { unfold ws in En. rewrite nth_error_map in En. destruct (nth_error files n) as [[q' c]|]; [|discriminate]. cbn in En. injection En as <- <-. eauto. }
      destruct Hq as (c & Hq & ->).
      destruct (Nat.eqb_spec i n) as [->|Hin].
      * destruct (Nat.ltb_spec n n); [lia|]. assert (c = chip /\ q = p) as [-> ->] by (split; congruence). apply bfs_write_same.
      * rewrite bfs_write_other by (intros ->; apply Hin; eapply D; eassumption).
        destruct (Nat.ltb_spec i n) as [Li|Li].
        -- apply (do_writes_nth (firstn n ws)) with (i := i).
           ++ rewrite firstn_map_fst. rewrite MF. rewrite <- (firstn_skipn n (map fst files)) in ND. apply NoDup_app_left in ND. exact ND.
           ++ rewrite nth_error_firstn. destruct (Nat.ltb_spec i n); [|lia]. apply N; exact H.
        -- apply do_writes_other. rewrite firstn_map_fst, MF. intros I. apply In_nth_error in I. destruct I as (i' & I).
           rewrite nth_error_firstn in I. destruct (Nat.ltb_spec i' n); [|discriminate]. rewrite nth_error_map in I.
           destruct (nth_error files i') as [[p' c']|] eqn:Ei; [|discriminate]. cbn in I. injection I as ->.
           pose proof (D _ _ _ _ _ H Ei). lia.
    + apply nth_error_None in En. unfold ws in En. rewrite map_length in En.
      assert (i < length files) by (apply nth_error_Some; congruence). destruct (Nat.ltb_spec i n); [|lia].
      apply (do_writes_nth ws) with (i := i); [rewrite MF; exact ND|apply N; exact H].
  - intros p H. apply killed_other. rewrite MF. exact H.
Qed.
Print Assumptions C106_chips_killed.

(** The list writer: complete, its file holds the list; killed after any number of bytes, its file
    holds the first entries and perhaps the beginning of the next, and no other file changed *)
Theorem C106_list_killed : forall w l fname, l <> [] -> Forall Spec_TextFiles.one_line l ->
  let ws := fst (list_writes l fname) in
  snd (list_writes l fname) = Ok tt /\
  (last l [] <> [] -> exists bs, do_writes w ws fname = Some bs /\ read_text_list_from_file bs = l) /\
  forall k, (forall p, p <> fname -> killed_write w ws 0 k p = w p) /\
    exists bs n part rest, killed_write w ws 0 k fname = Some bs /\ length bs <= k /\ n <= length l /\ nth n l [] = part ++ rest /\
      read_text_list_from_file bs = firstn n l ++ match part with [] => [] | _ => [part] end.
Proof.
  intros w l fname Hne HF ws. destruct (C106_list_cut None l Hne HF) as (content & E & C).
  assert (EW : list_writes l fname = ([(fname, content)], Ok tt)) by (unfold list_writes; now rewrite E).
  unfold ws. rewrite EW. cbn [fst snd]. split; [reflexivity|]. split.
  - intros HL. exists content. split; [unfold do_writes; cbn; apply bfs_write_same|].
    destruct (exists_last Hne) as (m & z & ->). rewrite write_snoc in E. injection E as <-.
    apply Forall_app in HF as [HF1 HF2]. inversion HF2; subst. rewrite read_snoc by assumption. rewrite last_last in HL. destruct z; [congruence|reflexivity].
  - intros k. unfold killed_write. cbn [nth_error firstn do_writes fold_left]. split.
    + intros p Hp. now apply bfs_write_other.
    + destruct (C k) as (n & part & rest & C1 & C2 & C3). exists (firstn k content), n, part, rest.
      split; [apply bfs_write_same|]. split; [rewrite firstn_length; lia|]. auto.
Qed.
Print Assumptions C106_list_killed.

(** Running a killed writer again, to its end, gives the files of an undisturbed run, for ENVI
    images, chips (with generated or given names) and list files *)
Theorem C106_run_again : forall w n k,
  (forall e none_is_f64 c d fname hname interleave p,
     let killed := killed_write w (fst (envi_writes e none_is_f64 c d fname hname interleave)) n k in
     fst (write_envi_image_bytes e none_is_f64 killed c d fname hname interleave) p =
     fst (write_envi_image_bytes e none_is_f64 w c d fname hname interleave) p) /\
  (forall A encode dir base fmt fnames ra nb (c : chips A) p,
     let ws := fst (chip_writes encode dir base fmt fnames ra nb c) in
     do_writes (killed_write w ws n k) ws p = do_writes w ws p) /\
  (forall l fname p,
     let ws := fst (list_writes l fname) in
     do_writes (killed_write w ws n k) ws p = do_writes w ws p).
Proof.
  intros w n k. split; [|split]; intros.
  - unfold write_envi_image_bytes. subst killed. destruct (envi_writes e none_is_f64 c d fname hname interleave) as [ws r]. cbn [fst]. apply write_again.
  - apply write_again.
  - apply write_again.
Qed.
Print Assumptions C106_run_again.

(** The hypotheses are met. A number that is cut is loaded as another number, and the columns are
    of different lengths, without an error *)
Definition demo_lines : list text :=
  [txt "Record header line"; txt "1 10 11 12 13 14 15 16 17 18"; txt "3 30 31 32 33 34 35 36 37 38"].
Theorem C106_eo_cut_refuted :
  Forall one_line demo_lines /\
  Forall (fun line => length (eo_values demo_float line) = 9 \/ eo_values demo_float line = []) demo_lines /\
  map (fun j => nth j (eo_load demo_float (lines_text demo_lines)) []) [0; 1; 2] = [[10; 30]; [11; 31]; [12; 32]]%Z /\
  map (fun j => nth j (eo_load demo_float (firstn 54 (lines_text demo_lines))) []) [0; 1; 2] = [[10; 30]; [11; 3]; [12]]%Z.
Proof.
  split; [|split; [|split; vm_compute; reflexivity]].
  - repeat constructor.
  - repeat constructor; first [right; reflexivity|left; reflexivity].
Qed.
Print Assumptions C106_eo_cut_refuted.
Example C106_ex_chips : exists files,
  write_chips_to_disk (txt "out") (txt "c") (txt "png") None true 1 (Chips4 [[[[1]]]; [[[2]]]]) = (files, Ok tt) /\
  map fst files = [txt "out/c_00000000.png"; txt "out/c_00000001.png"].
Proof. eexists. split; reflexivity. Qed.
