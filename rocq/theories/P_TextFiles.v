(** Proofs for the text helpers *)
From Coq Require Import Lia.
From Verif Require Import Text2 M_Envi M_TextFiles Spec_TextFiles.
Open Scope list_scope.

(* ---------------------------- newlines ---------------------------- *)
Lemma crlf_step_other c r : c <> ch_cr -> str_replace [ch_cr; ch_nl] [ch_nl] (c :: r) = c :: str_replace [ch_cr; ch_nl] [ch_nl] r.
Proof.
  intros H. unfold str_replace. cbn [replace_from is_prefix].
  destruct (Ascii.eqb_spec ch_cr c) as [E|E]; [congruence|]. reflexivity.
Qed.
Lemma crlf_step_pair r : str_replace [ch_cr; ch_nl] [ch_nl] (ch_cr :: ch_nl :: r) = ch_nl :: str_replace [ch_cr; ch_nl] [ch_nl] r.
Proof. reflexivity. Qed.
Lemma crlf_step_cr r : (forall r', r <> ch_nl :: r') ->
  str_replace [ch_cr; ch_nl] [ch_nl] (ch_cr :: r) = ch_cr :: str_replace [ch_cr; ch_nl] [ch_nl] r.
Proof.
  intros H. unfold str_replace. cbn [replace_from is_prefix].
  destruct r as [|d r]; [reflexivity|].
  destruct (Ascii.eqb_spec ch_nl d) as [<-|Hd]; [exfalso; apply (H r); reflexivity|].
  reflexivity.
Qed.

Lemma cleanup_posix t : cleanup_newlines_on posix_linesep t = universal_newlines t.
Proof.
  unfold cleanup_newlines_on, posix_linesep. rewrite replace_single_self, replace_single.
  enough (H : forall n t, (length t <= n)%nat ->
    flat_map (fun x => if Ascii.eqb x ch_cr then [ch_nl] else [x]) (str_replace [ch_cr; ch_nl] [ch_nl] t)
    = universal_newlines t) by (apply (H (length t)); lia).
  clear t. induction n as [|n IH]; intros [|c r] Hn; simpl in Hn; try lia; [reflexivity|reflexivity|].
  destruct (Ascii.eqb_spec c ch_cr) as [->|Hc].
  - destruct r as [|d r'].
    + reflexivity.
    + destruct (Ascii.eqb_spec d ch_nl) as [->|Hd].
      * rewrite crlf_step_pair. simpl. f_equal. apply IH. simpl in Hn; lia.
      * rewrite crlf_step_cr by (intros r2 E; congruence).
        change (ch_nl :: flat_map (fun x => if Ascii.eqb x ch_cr then [ch_nl] else [x]) (str_replace [ch_cr; ch_nl] [ch_nl] (d :: r')) = universal_newlines (ch_cr :: d :: r')).
        rewrite IH by (simpl in *; lia).
        cbn [universal_newlines]. rewrite Ascii.eqb_refl.
        destruct (Ascii.eqb_spec d ch_nl); [contradiction|reflexivity].
  - rewrite crlf_step_other by exact Hc. rewrite universal_step_other by exact Hc.
    cbn [flat_map]. destruct (Ascii.eqb_spec c ch_cr); [contradiction|].
    simpl. f_equal. apply IH. lia.
Qed.

Lemma universal_filter t :
  filter (fun c => negb (Ascii.eqb c ch_nl)) (universal_newlines t)
  = filter (fun c => negb (is_newline c)) t.
Proof.
  enough (H : forall n t, (length t <= n)%nat -> filter (fun c => negb (Ascii.eqb c ch_nl)) (universal_newlines t)
    = filter (fun c => negb (is_newline c)) t) by (apply (H (length t)); lia).
  clear t. induction n as [|n IH]; intros [|c r] Hn; simpl in Hn; try lia; auto.
  destruct (Ascii.eqb_spec c ch_cr) as [->|Hc].
  - destruct r as [|d r']; [reflexivity|].
    assert (U : universal_newlines (ch_cr :: d :: r') = if Ascii.eqb d ch_nl then ch_nl :: universal_newlines r'
      else ch_nl :: universal_newlines (d :: r')) by reflexivity.
    rewrite U. clear U.
    destruct (Ascii.eqb_spec d ch_nl) as [->|Hd].
    + simpl. apply IH. simpl in Hn; lia.
    + transitivity (filter (fun c => negb (Ascii.eqb c ch_nl)) (universal_newlines (d :: r'))); [reflexivity|].
      rewrite IH by (simpl in *; lia). reflexivity.
  - rewrite universal_step_other by exact Hc. cbn [filter].
    unfold is_newline at 1. destruct (Ascii.eqb_spec c ch_cr); [contradiction|].
    rewrite orb_false_r. rewrite IH by lia. reflexivity.
Qed.

Lemma remove_newlines_filter t : remove_newlines t = filter (fun c => negb (is_newline c)) t.
Proof.
  unfold remove_newlines, remove_newlines_on. rewrite cleanup_posix.
  unfold posix_linesep. rewrite replace_single_del. apply universal_filter.
Qed.

Lemma one_line_filter t : one_line t -> filter (fun c => negb (is_newline c)) t = t.
Proof. induction 1 as [|c t Hc _ IH]; simpl; auto. rewrite Hc. simpl. rewrite IH. reflexivity. Qed.

Lemma remove_newlines_id t : one_line t -> remove_newlines t = t.
Proof. intros H. rewrite remove_newlines_filter. apply one_line_filter; exact H. Qed.

Lemma remove_newlines_lf t : one_line t -> remove_newlines (t ++ [ch_nl]) = t.
Proof.
  intros H. rewrite remove_newlines_filter, filter_app, one_line_filter by exact H.
  simpl. apply app_nil_r.
Qed.

Lemma one_line_no_nl t : one_line t -> ~ In ch_nl t.
Proof. unfold one_line. rewrite Forall_forall. intros H Hi. specialize (H _ Hi). discriminate. Qed.
Lemma one_line_no_cr t : one_line t -> ~ In ch_cr t.
Proof. unfold one_line. rewrite Forall_forall. intros H Hi. specialize (H _ Hi). discriminate. Qed.

Lemma one_line_intro t : ~ In ch_nl t -> ~ In ch_cr t -> one_line t.
Proof.
  intros H1 H2. apply Forall_forall. intros c Hc. unfold is_newline.
  destruct (Ascii.eqb_spec c ch_nl) as [->|]; [contradiction|].
  destruct (Ascii.eqb_spec c ch_cr) as [->|]; [contradiction|]. reflexivity.
Qed.

(* windows *)
Lemma cleanup_windows_lf t : ~ In ch_cr t ->
  cleanup_newlines_on windows_linesep t = flat_map (fun c => if Ascii.eqb c ch_nl then [ch_cr; ch_nl] else [c]) t.
Proof.
  intros H. unfold cleanup_newlines_on, windows_linesep.
  assert (E : str_replace [ch_cr; ch_nl] [ch_cr; ch_nl] t = t).
  { clear -H. unfold str_replace. induction t as [|c t IH]; auto.
    cbn [replace_from is_prefix].
    destruct (Ascii.eqb_spec ch_cr c) as [<-|Hc]; [exfalso; apply H; left; reflexivity|].
    simpl. rewrite IH; auto. intros H2; apply H; right; exact H2. }
  rewrite E, (replace_single_notin ch_cr) by exact H. apply replace_single.
Qed.

(* --------------------------- snake case --------------------------- *)
Lemma lower_app a b : lower (a ++ b) = lower a ++ lower b.
Proof. apply map_app. Qed.

Lemma lower_no_upper t : Forall (fun c => is_upper c = false) (lower t).
Proof. unfold lower. apply Forall_map. apply Forall_forall. intros c _. apply lower_char_not_upper. Qed.

Lemma lower_id t : Forall (fun c => is_upper c = false) t -> lower t = t.
Proof. induction 1 as [|c t Hc _ IH]; simpl; auto. rewrite lower_char_id, IH; auto. Qed.

Definition nous (c : ascii) : bool := negb (Ascii.eqb c "_"%char).

Lemma sub1_step run c r : snake_sub1 run (c :: r) =
  if run && is_lower c then c :: snake_sub1 true r
  else match r with
       | u :: ((l :: _) as r2) =>
         if negb (Ascii.eqb c ch_nl) && is_upper u && is_lower l
         then c :: "_"%char :: u :: snake_sub1 true r2
         else c :: snake_sub1 false r
       | _ => c :: snake_sub1 false r
       end.
Proof. reflexivity. Qed.

Lemma sub1_filter n : forall run t, (length t <= n)%nat -> filter nous (snake_sub1 run t) = filter nous t.
Proof.
  induction n as [|n IH]; intros run [|c r] Hn; simpl in Hn; try lia; auto.
  rewrite sub1_step.
  assert (K : forall b, filter nous (c :: snake_sub1 b r) = filter nous (c :: r)).
  { intros b. cbn [filter]. rewrite (IH b r) by lia. reflexivity. }
  destruct (run && is_lower c); [apply K|].
  destruct r as [|u r]; [apply K|]. destruct r as [|l r]; [apply K|].
  destruct (negb (Ascii.eqb c ch_nl) && is_upper u && is_lower l); [|apply K].
  assert (E : filter nous (c :: "_"%char :: u :: snake_sub1 true (l :: r)) = filter nous (c :: u :: snake_sub1 true (l :: r))) by reflexivity.
  rewrite E. cbn [filter]. rewrite (IH true (l :: r)) by (simpl in *; lia). reflexivity.
Qed.

Lemma sub2_step c u r : snake_sub2 (c :: u :: r) =
  if (is_lower c || is_digit c) && is_upper u
  then c :: "_"%char :: u :: snake_sub2 r
  else c :: snake_sub2 (u :: r).
Proof. reflexivity. Qed.

Lemma sub2_filter n : forall t, (length t <= n)%nat -> filter nous (snake_sub2 t) = filter nous t.
Proof.
  induction n as [|n IH]; intros [|c r] Hn; simpl in Hn; try lia; auto.
  destruct r as [|u r]; [reflexivity|].
  rewrite sub2_step. destruct ((is_lower c || is_digit c) && is_upper u).
  - assert (E : filter nous (c :: "_"%char :: u :: snake_sub2 r) = filter nous (c :: u :: snake_sub2 r)) by reflexivity.
    rewrite E. cbn [filter]. rewrite (IH r) by (simpl in *; lia). reflexivity.
  - cbn [filter]. rewrite (IH (u :: r)) by (simpl in *; lia). reflexivity.
Qed.

Lemma nous_lower c : nous (lower_char c) = nous c.
Proof. destruct c as [[] [] [] [] [] [] [] []]; reflexivity. Qed.

Lemma lower_filter t : filter nous (lower t) = lower (filter nous t).
Proof.
  induction t as [|c t IH]; simpl; auto. rewrite nous_lower.
  destruct (nous c); simpl; rewrite IH; reflexivity.
Qed.

Lemma snake_filter t : filter nous (convert_to_snake_case t) = filter nous (lower t).
Proof.
  unfold convert_to_snake_case. rewrite !lower_filter.
  rewrite (sub2_filter _ _ (le_n _)), (sub1_filter _ _ _ (le_n _)). reflexivity.
Qed.

Lemma sub1_no_upper t : forall run, Forall (fun c => is_upper c = false) t -> snake_sub1 run t = t.
Proof.
  induction t as [|c r IH]; intros run H; auto.
  inversion H as [|? ? Hc Hr]; subst. rewrite sub1_step.
  destruct (run && is_lower c); [rewrite IH; auto|].
  destruct r as [|u r]; [rewrite IH; auto|]. destruct r as [|l r]; [rewrite IH; auto|].
  inversion Hr as [|? ? Hu ?]; subst. rewrite Hu, andb_false_r. simpl andb.
  rewrite IH; auto.
Qed.

Lemma sub2_no_upper t : Forall (fun c => is_upper c = false) t -> snake_sub2 t = t.
Proof.
  induction t as [|c r IH]; intros H; auto.
  inversion H as [|? ? Hc Hr]; subst. destruct r as [|u r]; [reflexivity|].
  inversion Hr as [|? ? Hu ?]; subst. rewrite sub2_step, Hu, andb_false_r. rewrite IH; auto.
Qed.

Lemma snake_id t : Forall (fun c => is_upper c = false) t -> convert_to_snake_case t = t.
Proof.
  intros H. unfold convert_to_snake_case. rewrite sub1_no_upper, sub2_no_upper by exact H.
  apply lower_id; exact H.
Qed.

(* CamelCase *)
Lemma sub1_run ls t : Forall (fun c => is_lower c = true) ls ->
  snake_sub1 true (ls ++ t) = ls ++ snake_sub1 true t.
Proof.
  induction 1 as [|c ls Hc _ IH]; auto.
  rewrite <- app_comm_cons, sub1_step, Hc. simpl. rewrite IH. reflexivity.
Qed.

Definition no_lower_head (t : text) : Prop := match t with c :: _ => is_lower c = false | [] => True end.

Lemma sub1_run_end t : no_lower_head t -> snake_sub1 true t = snake_sub1 false t.
Proof. destruct t as [|c r]; auto. simpl no_lower_head. intros H. rewrite !sub1_step, H. reflexivity. Qed.

Lemma lower_not_nl c : is_lower c = true -> Ascii.eqb c ch_nl = false.
Proof. destruct c as [[] [] [] [] [] [] [] []]; vm_compute; congruence. Qed.

Lemma upper_not_lower c : is_upper c = true -> is_lower c = false.
Proof. destruct c as [[] [] [] [] [] [] [] []]; vm_compute; congruence. Qed.
Lemma upper_not_digit c : is_upper c = true -> is_digit c = false.
Proof. destruct c as [[] [] [] [] [] [] [] []]; vm_compute; congruence. Qed.

(* one word at the end *)
Lemma sub1_word_end u ls : is_upper u = true -> Forall (fun c => is_lower c = true) ls ->
  snake_sub1 false (u :: ls) = u :: ls.
Proof.
  intros Hu H.
  assert (K : snake_sub1 false ls = ls).
  { apply sub1_no_upper. eapply Forall_impl; [|exact H]. apply lower_not_upper_in. }
  rewrite sub1_step. simpl andb. destruct ls as [|l ls]; [reflexivity|].
  inversion H as [|? ? Hl Hls]; subst. destruct ls as [|m ls].
  - rewrite K. reflexivity.
  - rewrite (lower_not_upper_in l Hl), andb_false_r. simpl andb. rewrite K. reflexivity.
Qed.

Lemma sub1_skip c d t : is_upper d = false -> snake_sub1 false (c :: d :: t) = c :: snake_sub1 false (d :: t).
Proof.
  intros H. rewrite (sub1_step false c). cbn [andb].
  destruct t as [|l t]; [reflexivity|]. rewrite H, andb_false_r. reflexivity.
Qed.

Lemma sub1_match c v m t : is_lower c = true -> is_upper v = true -> is_lower m = true ->
  snake_sub1 false (c :: v :: m :: t) = c :: "_"%char :: v :: snake_sub1 true (m :: t).
Proof.
  intros Hc Hv Hm. rewrite (sub1_step false c). cbn [andb]. rewrite (lower_not_nl c Hc), Hv, Hm. reflexivity.
Qed.

Lemma sub1_lowers_then ls v m ms : ls <> [] -> Forall (fun c => is_lower c = true) ls ->
  is_upper v = true -> is_lower m = true ->
  snake_sub1 false (ls ++ v :: m :: ms) = ls ++ "_"%char :: v :: snake_sub1 true (m :: ms).
Proof.
  intros Hne H Hv Hm. induction H as [|c ls Hc H IH]; [congruence|].
  destruct ls as [|d ls].
  - apply sub1_match; assumption.
  - inversion H as [|? ? Hd Hls]; subst. specialize (IH ltac:(discriminate)).
    cbn [app] in *. rewrite sub1_skip by (apply lower_not_upper_in; exact Hd). rewrite IH. reflexivity.
Qed.

Lemma sub1_two_words u ls v m ms rest :
  is_upper u = true -> ls <> [] -> Forall (fun c => is_lower c = true) ls ->
  is_upper v = true -> is_lower m = true -> Forall (fun c => is_lower c = true) ms ->
  no_lower_head rest ->
  snake_sub1 false (u :: ls ++ v :: m :: ms ++ rest)
  = u :: ls ++ "_"%char :: v :: m :: ms ++ snake_sub1 false rest.
Proof.
  intros Hu Hne Hls Hv Hm Hms Hrest.
  assert (E : snake_sub1 false (u :: ls ++ v :: m :: ms ++ rest) = u :: snake_sub1 false (ls ++ v :: m :: ms ++ rest)).
  { destruct ls as [|l ls]; [congruence|].
    inversion Hls as [|? ? Hl ?]; subst. cbn [app]. apply sub1_skip. apply lower_not_upper_in; exact Hl. }
  rewrite E. rewrite sub1_lowers_then by assumption.
  change (m :: ms ++ rest) with ((m :: ms) ++ rest).
  rewrite sub1_run by (constructor; assumption). rewrite sub1_run_end by exact Hrest. reflexivity.
Qed.

Definition upper_head (t : text) : bool := match t with c :: _ => is_upper c | [] => false end.

Lemma sub2_upper u t : is_upper u = true -> snake_sub2 (u :: t) = u :: snake_sub2 t.
Proof.
  intros H. destruct t as [|d t]; [reflexivity|].
  rewrite sub2_step, (upper_not_lower u H), (upper_not_digit u H). reflexivity.
Qed.

Lemma sub2_lowers ls t : ls <> [] -> Forall (fun c => is_lower c = true) ls ->
  snake_sub2 (ls ++ t) = ls ++ (if upper_head t then ["_"%char] else []) ++ snake_sub2 t.
Proof.
  intros Hne H. induction H as [|c ls Hc H IH]; [congruence|].
  destruct ls as [|d ls].
  - simpl app. destruct t as [|u t]; [reflexivity|].
    rewrite sub2_step, Hc. simpl orb. simpl upper_head. simpl andb.
    destruct (is_upper u) eqn:Hu; [|reflexivity].
    rewrite (sub2_upper u t Hu). reflexivity.
  - inversion H as [|? ? Hd ?]; subst.
    rewrite <- !app_comm_cons. rewrite sub2_step, (lower_not_upper_in d Hd), andb_false_r.
    rewrite app_comm_cons. rewrite (IH ltac:(discriminate)). reflexivity.
Qed.

Lemma sub2_word w t : cap_word w ->
  snake_sub2 (w ++ t) = w ++ (if upper_head t then ["_"%char] else []) ++ snake_sub2 t.
Proof.
  intros (u & ls & -> & Hu & Hne & Hls). rewrite <- app_comm_cons, sub2_upper by exact Hu.
  rewrite sub2_lowers by assumption. reflexivity.
Qed.

Lemma sub2_us t : snake_sub2 ("_"%char :: t) = "_"%char :: snake_sub2 t.
Proof. destruct t as [|u t]; reflexivity. Qed.

Lemma cap_head_no_lower w t : cap_word w -> no_lower_head (w ++ t).
Proof. intros (u & ls & -> & Hu & _). simpl. apply upper_not_lower; exact Hu. Qed.

Lemma sub1_camel_pair w1 w2 ws : cap_word w1 -> cap_word w2 -> Forall cap_word ws ->
  snake_sub1 false (w1 ++ w2 ++ concat ws) = w1 ++ "_"%char :: w2 ++ snake_sub1 false (concat ws).
Proof.
  intros (u & ls & -> & Hu & Hne & Hls) (v & ms & -> & Hv & Hne2 & Hms) Hws.
  destruct ms as [|m ms]; [congruence|]. inversion Hms as [|? ? Hm Hms']; subst.
  assert (Hn : no_lower_head (concat ws)).
  { destruct Hws as [|w ws Hw _]; [exact I|]. simpl. apply cap_head_no_lower; exact Hw. }
  pose proof (sub1_two_words u ls v m ms (concat ws) Hu Hne Hls Hv Hm Hms' Hn) as E.
  simpl app. rewrite E. reflexivity.
Qed.

Lemma sub1_camel_one w : cap_word w -> snake_sub1 false w = w.
Proof. intros (u & ls & -> & Hu & _ & Hls). apply sub1_word_end; assumption. Qed.

Lemma upper_head_sub1 w ws : cap_word w -> Forall cap_word ws ->
  upper_head (snake_sub1 false (w ++ concat ws)) = true.
Proof.
  intros Hw Hws. destruct Hws as [|w2 ws Hw2 Hws].
  - simpl. rewrite app_nil_r, sub1_camel_one by exact Hw.
    destruct Hw as (u & ls & -> & Hu & _). exact Hu.
  - simpl concat. rewrite sub1_camel_pair by assumption.
    destruct Hw as (u & ls & -> & Hu & _). exact Hu.
Qed.

Lemma camel_subs n : forall ws, (length ws <= n)%nat -> Forall cap_word ws ->
  snake_sub2 (snake_sub1 false (concat ws)) = join (txt "_") ws.
Proof.
  induction n as [|n IH]; intros [|w1 ws] Hn H; simpl in Hn; try lia; try reflexivity.
  inversion H as [|? ? H1 Hws]; subst. destruct ws as [|w2 ws].
  - simpl concat. rewrite app_nil_r, sub1_camel_one by exact H1.
    pose proof (sub2_word w1 [] H1) as E. rewrite app_nil_r in E. rewrite E. simpl. rewrite app_nil_r. reflexivity.
  - inversion Hws as [|? ? H2 Hws']; subst. simpl concat.
    rewrite sub1_camel_pair by assumption.
    rewrite sub2_word by exact H1.
    change (upper_head ("_"%char :: w2 ++ snake_sub1 false (concat ws))) with false. cbv iota. cbn [app].
    rewrite sub2_us, sub2_word by exact H2.
    rewrite (IH ws) by (simpl in *; try lia; assumption).
    destruct ws as [|w3 ws].
    + simpl. rewrite app_nil_r. reflexivity.
    + inversion Hws' as [|? ? H3 Hws'']; subst.
      simpl concat. rewrite upper_head_sub1 by assumption. reflexivity.
Qed.

Lemma lower_join sep ws : lower (join sep ws) = join (lower sep) (map lower ws).
Proof.
  induction ws as [|w ws IH]; auto. destruct ws as [|w2 ws]; [reflexivity|].
  change (join sep (w :: w2 :: ws)) with (w ++ sep ++ join sep (w2 :: ws)).
  rewrite !lower_app, IH. reflexivity.
Qed.

Lemma snake_camel ws : Forall cap_word ws ->
  convert_to_snake_case (concat ws) = join (txt "_") (map lower ws).
Proof.
  intros H. unfold convert_to_snake_case. rewrite (camel_subs _ ws (le_n _) H).
  apply (lower_join (txt "_")).
Qed.

(* --------------------------- text list file ----------------------- *)
Lemma py_get_last {A} (l : list A) z : py_get (l ++ [z]) (-1) = Ok z.
Proof.
  destruct (py_get_neg (l ++ [z]) (-1)) as (a & E & G).
  { rewrite zlen_app. unfold zlen; simpl. lia. }
  rewrite G. f_equal. rewrite zlen_app in E.
  replace (Z.to_nat (zlen l + zlen [z] + -1)) with (length l) in E by (unfold zlen; simpl; lia).
  rewrite nth_error_app2, Nat.sub_diag in E by lia. simpl in E. congruence.
Qed.

Lemma write_snoc old l z :
  write_text_list_to_file old (l ++ [z]) = (Some (lines_text l ++ z), Ok tt).
Proof. unfold write_text_list_to_file. rewrite py_get_last, removelast_last. reflexivity. Qed.

Lemma no_cr_lines l : Forall one_line l -> ~ In ch_cr (lines_text l).
Proof.
  unfold lines_text. intros H Hi. apply in_concat in Hi. destruct Hi as (x & Hx & Hi).
  apply in_map_iff in Hx. destruct Hx as (y & <- & Hy).
  apply in_app_or in Hi. destruct Hi as [Hi|[Hi|[]]]; [|discriminate].
  rewrite Forall_forall in H. apply (one_line_no_cr y); auto.
Qed.

Lemma file_lines_snoc l z : Forall one_line l -> one_line z ->
  file_lines (lines_text l ++ z) = map (fun x => x ++ [ch_nl]) l ++ (match z with [] => [] | _ => [z] end).
Proof.
  intros Hl Hz. unfold file_lines. rewrite universal_id.
  - unfold lines_text. rewrite readlines_lines.
    + f_equal. destruct z as [|c z]; [reflexivity|].
      apply readlines_last; [apply one_line_no_nl; exact Hz|discriminate].
    + eapply Forall_impl; [|exact Hl]. apply one_line_no_nl.
  - intros H. apply in_app_or in H. destruct H as [H|H].
    + apply (no_cr_lines l Hl H).
    + apply (one_line_no_cr z Hz H).
Qed.

Lemma map_remove_lines l : Forall one_line l -> map remove_newlines (map (fun x => x ++ [ch_nl]) l) = l.
Proof.
  induction 1 as [|x l Hx _ IH]; simpl; auto. rewrite remove_newlines_lf, IH by exact Hx. reflexivity.
Qed.

Lemma read_snoc l z : Forall one_line l -> one_line z ->
  read_text_list_from_file (lines_text l ++ z) = l ++ (match z with [] => [] | _ => [z] end).
Proof.
  intros Hl Hz. unfold read_text_list_from_file. rewrite file_lines_snoc by assumption.
  rewrite map_app, map_remove_lines by exact Hl. f_equal.
  destruct z as [|c z]; [reflexivity|]. simpl map. rewrite remove_newlines_id by exact Hz. reflexivity.
Qed.

Lemma readlines_no_inner_nl t l : In l (readlines t) -> exists a, ~ In ch_nl a /\ (l = a ++ [ch_nl] \/ l = a).
Proof.
  revert l; induction t as [|c r IH]; simpl; intros l H; [destruct H|].
  destruct (Ascii.eqb_spec c ch_nl) as [->|Hc].
  - destruct H as [<-|H]; [exists []; auto|apply IH; exact H].
  - destruct (readlines r) as [|x xs].
    + destruct H as [<-|[]]. exists [c]. split; [|right; reflexivity]. intros [H|[]]; congruence.
    + destruct H as [<-|H]; [|apply IH; right; exact H].
      destruct (IH x (or_introl eq_refl)) as (a & Ha & E).
      exists (c :: a). split; [intros [H|H]; congruence|].
      destruct E as [-> | ->]; auto.
Qed.

Lemma read_all_one_line content : Forall one_line (read_text_list_from_file content).
Proof.
  unfold read_text_list_from_file. apply Forall_map, Forall_forall. intros l _.
  rewrite remove_newlines_filter. apply Forall_forall. intros c Hc. apply filter_In in Hc.
  destruct Hc as [_ Hc]. destruct (is_newline c); [discriminate|reflexivity].
Qed.

(* ---------------------------- transposes -------------------------- *)
Lemma rectangular_spec {A} (rows : list (list A)) w :
  rectangular rows w = true <-> Forall (fun r => length r = w) rows.
Proof.
  unfold rectangular. rewrite forallb_forall, Forall_forall.
  split; intros H r Hr; specialize (H r Hr); apply Nat.eqb_eq; exact H.
Qed.

Lemma rectangular_width {A} (rows : list (list A)) w : rows <> [] ->
  Forall (fun r => length r = w) rows -> width rows = w.
Proof. destruct 2; [congruence|]. assumption. Qed.

Lemma transpose_n_length {A} w : forall rows : list (list A), length (transpose_n w rows) = w.
Proof. induction w; simpl; auto. Qed.

Lemma heads_spec {A} (rows : list (list A)) w : Forall (fun r => length r = S w) rows ->
  length (heads rows) = length rows /\
  forall i, nth_error (heads rows) i = match nth_error rows i with Some r => nth_error r 0 | None => None end.
Proof.
  induction 1 as [|r rows Hr H IH]; simpl.
  - split; auto. intros [|i]; reflexivity.
  - destruct r as [|a r]; [discriminate|]. destruct IH as [L E]. simpl. split; [lia|].
    intros [|i]; simpl; auto.
Qed.

Lemma tls_length {A} (rows : list (list A)) w : Forall (fun r => length r = S w) rows ->
  Forall (fun r => length r = w) (map (@tl A) rows).
Proof. induction 1 as [|r rows Hr H IH]; simpl; constructor; auto. destruct r; simpl in *; lia. Qed.

Lemma transpose_n_nth {A} w : forall (rows : list (list A)), Forall (fun r => length r = w) rows ->
  forall j, (j < w)%nat -> exists col, nth_error (transpose_n w rows) j = Some col /\
    length col = length rows /\
    forall i, nth_error col i = match nth_error rows i with Some r => nth_error r j | None => None end.
Proof.
  induction w as [|w IH]; intros rows H j Hj; [lia|].
  destruct j as [|j].
  - destruct (heads_spec rows w H) as [L E]. exists (heads rows). simpl. auto.
  - destruct (IH _ (tls_length rows w H) j ltac:(lia)) as (col & E1 & L & E2).
    exists col. simpl. rewrite map_length in L. split; auto. split; auto.
    intros i. rewrite E2, nth_error_map. destruct (nth_error rows i) as [r|] eqn:Er; simpl; auto.
    rewrite Forall_forall in H. pose proof (H r (nth_error_In _ _ Er)). destruct r; simpl in *; [lia|reflexivity].
Qed.

Lemma list_ext {A} (l m : list A) : (forall i, nth_error l i = nth_error m i) -> l = m.
Proof.
  revert m; induction l as [|a l IH]; intros [|b m] H; auto.
  - specialize (H O); discriminate.
  - specialize (H O); discriminate.
  - pose proof (H O) as H0. simpl in H0. injection H0 as ->. f_equal. apply IH. intros i. apply (H (S i)).
Qed.

Lemma transpose_rect {A} (rows : list (list A)) w : Forall (fun r => length r = w) rows ->
  Forall (fun c => length c = length rows) (transpose_n w rows).
Proof.
  intros H. apply Forall_forall. intros c Hc. apply In_nth_error in Hc. destruct Hc as (j & Hj).
  assert (Hlt : (j < w)%nat).
  { rewrite <- (transpose_n_length w rows). apply nth_error_Some. congruence. }
  destruct (transpose_n_nth w rows H j Hlt) as (col & E & L & _). congruence.
Qed.

Lemma transpose_n_invol {A} (rows : list (list A)) w : Forall (fun r => length r = w) rows ->
  transpose_n (length rows) (transpose_n w rows) = rows.
Proof.
  intros H. pose proof (transpose_rect rows w H) as HT. apply list_ext. intros i.
  destruct (nth_error rows i) as [r|] eqn:Er.
  - assert (Hi : (i < length rows)%nat) by (apply nth_error_Some; congruence).
    destruct (transpose_n_nth (length rows) (transpose_n w rows) HT i Hi) as (col & E & L & G).
    rewrite E. f_equal. apply list_ext. intros j. rewrite G.
    rewrite Forall_forall in H. pose proof (H r (nth_error_In _ _ Er)) as Lr.
    destruct (Nat.lt_ge_cases j w) as [Hj|Hj].
    + rewrite <- Forall_forall in H. destruct (transpose_n_nth w rows H j Hj) as (c & E2 & _ & G2).
      rewrite E2, G2, Er. reflexivity.
    + rewrite (proj2 (nth_error_None (transpose_n w rows) j)) by (rewrite transpose_n_length; lia).
      symmetry. apply nth_error_None. lia.
  - apply nth_error_None in Er. apply nth_error_None. rewrite transpose_n_length. exact Er.
Qed.

(* ------------------------------- csv ------------------------------ *)
(** the same machine on a character stream *)
Fixpoint csv_stream (delim : ascii) (fresh : bool) (t : text) (s : csv_state) : result (list (list text)) :=
  match t with
  | [] => if fresh then csv_records delim [] s
          else s' <- csv_step delim s None ;;
               match cs_st s' with
               | StartRecord => Ok [cs_fields s']
               | _ => csv_records delim [] s'
               end
  | c :: r =>
    s1 <- csv_step delim s (Some c) ;;
    if Ascii.eqb c ch_nl then
      s2 <- csv_step delim s1 None ;;
      match cs_st s2 with
      | StartRecord => rows <- csv_stream delim true r csv_init ;; Ok (cs_fields s2 :: rows)
      | _ => csv_stream delim true r s2
      end
    else csv_stream delim false r s1
  end.

Lemma foldM_app {A S} (f : S -> A -> result S) l m s :
  foldM f (l ++ m) s = bind (foldM f l s) (foldM f m).
Proof.
  revert s; induction l as [|a l IH]; intros s; simpl; auto.
  destruct (f s a); simpl; auto.
Qed.

Lemma bind_assoc {A B C} (r : result A) (f : A -> result B) (g : B -> result C) :
  bind (bind r f) g = bind r (fun a => bind (f a) g).
Proof. destruct r; reflexivity. Qed.

Lemma csv_stream_records delim t : forall s,
  csv_stream delim true t s = csv_records delim (readlines t) s /\
  csv_stream delim false t s =
    match readlines t with
    | [] => csv_records delim [[]] s
    | l :: ls => csv_records delim (l :: ls) s
    end.
Proof.
  induction t as [|c r IH]; intros s.
  - split; [reflexivity|]. simpl. destruct (csv_step delim s None) as [s'| |]; simpl; auto.
  - assert (K : csv_stream delim true (c :: r) s = csv_records delim (readlines (c :: r)) s).
    { cbn [csv_stream readlines].
      destruct (Ascii.eqb_spec c ch_nl) as [->|Hc].
      - cbn [csv_records app map foldM]. rewrite !bind_assoc.
        destruct (csv_step delim s (Some ch_nl)) as [s1| |]; simpl; auto.
        destruct (csv_step delim s1 None) as [s2| |]; simpl; auto.
        destruct (cs_st s2); try apply IH. rewrite (proj1 (IH csv_init)). reflexivity.
      - destruct (csv_step delim s (Some c)) as [s1| |] eqn:E1.
        + cbn [bind]. rewrite (proj2 (IH s1)).
          destruct (readlines r) as [|l ls]; cbn [csv_records app map foldM]; rewrite E1; reflexivity.
        + destruct (readlines r) as [|l ls]; cbn [csv_records app map foldM]; rewrite E1; reflexivity.
        + destruct (readlines r) as [|l ls]; cbn [csv_records app map foldM]; rewrite E1; reflexivity. }
    split; [exact K|].
    assert (N : readlines (c :: r) <> []).
    { cbn [readlines]. destruct (Ascii.eqb c ch_nl); [discriminate|]. destruct (readlines r); discriminate. }
    transitivity (csv_stream delim true (c :: r) s); [reflexivity|]. rewrite K.
    destruct (readlines (c :: r)); [congruence|reflexivity].
Qed.

Lemma csv_stream_step_other d fresh c r s : c <> ch_nl ->
  csv_stream d fresh (c :: r) s = bind (csv_step d s (Some c)) (csv_stream d false r).
Proof. intros H. cbn [csv_stream]. destruct (Ascii.eqb_spec c ch_nl); [contradiction|reflexivity]. Qed.

Lemma newline_false_nl c : is_newline c = false -> c <> ch_nl.
Proof. intros H ->. discriminate. Qed.

(* a plain run of characters inside a field *)
Lemma stream_in_field d f t rest fld flds : one_line t -> ~ In d t ->
  csv_stream d f (t ++ rest) (mkCsv InField fld flds) = csv_stream d (match t with [] => f | _ => false end) rest (mkCsv InField (fld ++ t) flds).
Proof.
  intros H Hd. revert f fld. induction H as [|c t Hc Ht IH]; intros f fld.
  - cbn [app]. rewrite app_nil_r. reflexivity.
  - rewrite <- app_comm_cons. rewrite csv_stream_step_other by (apply newline_false_nl; exact Hc).
    cbn [csv_step cs_st]. unfold is_nl. fold (is_newline c). rewrite Hc.
    destruct (Ascii.eqb_spec c d) as [->|Hcd]; [exfalso; apply Hd; left; reflexivity|].
    cbn [bind]. unfold csv_add. cbn [cs_field cs_fields].
    rewrite IH by (intros Hi; apply Hd; right; exact Hi). rewrite <- app_assoc. simpl.
    destruct t; reflexivity.
Qed.

(* the inside of a quoted field *)
Definition dbl (t : text) : text := flat_map (fun x => if Ascii.eqb x dquote then [dquote; dquote] else [x]) t.

Lemma stream_in_quoted d t rest : forall f fld flds,
  exists f', csv_stream d f (dbl t ++ dquote :: rest) (mkCsv InQuoted fld flds)
  = csv_stream d f' (dquote :: rest) (mkCsv InQuoted (fld ++ t) flds).
Proof.
  induction t as [|c t IH]; intros f fld flds.
  - exists f. rewrite app_nil_r. reflexivity.
  - unfold dbl. cbn [flat_map]. fold (dbl t).
    destruct (Ascii.eqb_spec c dquote) as [->|Hq].
    + destruct (IH false (fld ++ [dquote]) flds) as (f' & E). exists f'.
      rewrite <- app_assoc in E. cbn [app] in E. rewrite <- E.
      rewrite <- app_assoc. cbn [app]. rewrite csv_stream_step_other by discriminate.
      cbn [csv_step cs_st bind]. change (Ascii.eqb dquote ch_quote) with true. cbv iota.
      unfold csv_goto. cbn [cs_field cs_fields bind]. rewrite csv_stream_step_other by discriminate.
      cbn [csv_step cs_st bind]. change (Ascii.eqb dquote ch_quote) with true. cbv iota. reflexivity.
    + destruct (Ascii.eqb_spec c ch_nl) as [->|Hn].
      * destruct (IH true (fld ++ [ch_nl]) flds) as (f' & E). exists f'.
        rewrite <- app_assoc in E. cbn [app] in E. rewrite <- E. reflexivity.
      * destruct (IH false (fld ++ [c]) flds) as (f' & E). exists f'.
        rewrite <- app_assoc in E. cbn [app] in E. rewrite <- E.
        cbn [app]. rewrite csv_stream_step_other by exact Hn.
        cbn [csv_step cs_st]. change ch_quote with dquote.
        destruct (Ascii.eqb_spec c dquote); [contradiction|]. reflexivity.
Qed.

(* one cell followed by the delimiter or LF; start is StartRecord or StartField *)
Definition is_start (st : csv_st) : Prop := st = StartRecord \/ st = StartField.

Lemma stream_cell_delim d f c rest st flds : good_delim d -> good_cell d c -> is_start st ->
  csv_stream d f (write_cell c ++ d :: rest) (mkCsv st [] flds)
  = csv_stream d false rest (mkCsv StartField [] (flds ++ [cell_text c])).
Proof.
  intros (Hd1 & Hd2) Hc Hst.
  assert (Hdn : d <> ch_nl) by (apply newline_false_nl; exact Hd1).
  destruct c as [t|t]; cbn [write_cell cell_text] in *.
  - destruct Hc as (H1 & H2 & H3). destruct t as [|x t].
    + cbn [app]. rewrite csv_stream_step_other by exact Hdn.
      assert (E : csv_step d (mkCsv st [] flds) (Some d) = Ok (mkCsv StartField [] (flds ++ [[]]))).
      { destruct Hst as [-> | ->]; cbn [csv_step cs_st csv_start_field]; unfold is_nl; fold (is_newline d); rewrite Hd1;
          change ch_quote with dquote; (destruct (Ascii.eqb_spec d dquote); [contradiction|]); rewrite Ascii.eqb_refl; reflexivity. }
      rewrite E. reflexivity.
    + inversion H1 as [|? ? Hx Ht]; subst. rewrite <- app_comm_cons.
      rewrite csv_stream_step_other by (apply newline_false_nl; exact Hx).
      assert (Hxq : x <> dquote) by (intros ->; apply (H3 t); reflexivity).
      assert (Hxd : x <> d) by (intros ->; apply H2; left; reflexivity).
      assert (E : csv_step d (mkCsv st [] flds) (Some x) = Ok (mkCsv InField [x] flds)).
      { destruct Hst as [-> | ->]; cbn [csv_step cs_st csv_start_field]; unfold is_nl; fold (is_newline x); rewrite Hx;
          change ch_quote with dquote; (destruct (Ascii.eqb_spec x dquote); [contradiction|]); (destruct (Ascii.eqb_spec x d); [contradiction|]); reflexivity. }
      rewrite E. cbn [bind]. rewrite stream_in_field by (try exact Ht; intros Hi; apply H2; right; exact Hi).
      rewrite csv_stream_step_other by exact Hdn.
      cbn [csv_step cs_st]. unfold is_nl. fold (is_newline d). rewrite Hd1, Ascii.eqb_refl. reflexivity.
  - rewrite <- app_comm_cons, csv_stream_step_other by discriminate.
    assert (E : csv_step d (mkCsv st [] flds) (Some dquote) = Ok (mkCsv InQuoted [] flds)).
    { destruct Hst as [-> | ->]; reflexivity. }
    rewrite E. cbn [bind]. rewrite <- app_assoc. fold (dbl t).
    destruct (stream_in_quoted d t (d :: rest) false [] flds) as (f' & E2).
    cbn [app] in E2 |- *. rewrite E2. rewrite csv_stream_step_other by discriminate.
    cbn [csv_step cs_st]. change (Ascii.eqb dquote ch_quote) with true. cbv iota. cbn [bind].
    unfold csv_goto. cbn [cs_field cs_fields]. rewrite csv_stream_step_other by exact Hdn.
    cbn [csv_step cs_st]. change ch_quote with dquote.
    destruct (Ascii.eqb_spec d dquote); [contradiction|]. rewrite Ascii.eqb_refl. reflexivity.
Qed.

Lemma stream_nl d f st fld flds rest : (st = InField \/ st = QuoteInQuoted \/ st = StartField) -> d <> ch_nl ->
  csv_stream d f (ch_nl :: rest) (mkCsv st fld flds)
  = bind (csv_stream d true rest csv_init) (fun rows => Ok ((flds ++ [fld]) :: rows)).
Proof.
  intros H Hd.
  assert (E : csv_step d (mkCsv st fld flds) (Some ch_nl) = Ok (mkCsv EatCrnl [] (flds ++ [fld]))).
  { destruct H as [-> | [-> | ->]]; cbn [csv_step cs_st]; try reflexivity.
    change (Ascii.eqb ch_nl ch_quote) with false. cbv iota.
    destruct (Ascii.eqb_spec ch_nl d); [congruence|]. reflexivity. }
  cbn [csv_stream]. rewrite E. reflexivity.
Qed.

Lemma stream_cell_nl d f c rest st flds : good_delim d -> good_cell d c -> is_start st ->
  (st = StartField \/ c <> Plain []) ->
  csv_stream d f (write_cell c ++ ch_nl :: rest) (mkCsv st [] flds)
  = bind (csv_stream d true rest csv_init) (fun rows => Ok ((flds ++ [cell_text c]) :: rows)).
Proof.
  intros (Hd1 & Hd2) Hc Hst Hne.
  assert (Hdn : d <> ch_nl) by (apply newline_false_nl; exact Hd1).
  destruct c as [t|t]; cbn [write_cell cell_text] in *.
  - destruct Hc as (H1 & H2 & H3). destruct t as [|x t].
    + destruct Hne as [->|Hne]; [|congruence]. cbn [app]. apply stream_nl; auto.
    + inversion H1 as [|? ? Hx Ht]; subst. rewrite <- app_comm_cons.
      rewrite csv_stream_step_other by (apply newline_false_nl; exact Hx).
      assert (Hxq : x <> dquote) by (intros ->; apply (H3 t); reflexivity).
      assert (Hxd : x <> d) by (intros ->; apply H2; left; reflexivity).
      assert (E : csv_step d (mkCsv st [] flds) (Some x) = Ok (mkCsv InField [x] flds)).
      { destruct Hst as [-> | ->]; cbn [csv_step cs_st csv_start_field]; unfold is_nl; fold (is_newline x); rewrite Hx;
          change ch_quote with dquote; (destruct (Ascii.eqb_spec x dquote); [contradiction|]); (destruct (Ascii.eqb_spec x d); [contradiction|]); reflexivity. }
      rewrite E. cbn [bind]. rewrite stream_in_field by (try exact Ht; intros Hi; apply H2; right; exact Hi).
      apply stream_nl; auto.
  - rewrite <- app_comm_cons, csv_stream_step_other by discriminate.
    assert (E : csv_step d (mkCsv st [] flds) (Some dquote) = Ok (mkCsv InQuoted [] flds)).
    { destruct Hst as [-> | ->]; reflexivity. }
    rewrite E. cbn [bind]. rewrite <- app_assoc. fold (dbl t).
    destruct (stream_in_quoted d t (ch_nl :: rest) false [] flds) as (f' & E2).
    cbn [app] in E2 |- *. rewrite E2. rewrite csv_stream_step_other by discriminate.
    cbn [csv_step cs_st]. change (Ascii.eqb dquote ch_quote) with true. cbv iota. cbn [bind].
    unfold csv_goto. cbn [cs_field cs_fields]. apply stream_nl; auto.
Qed.

Lemma stream_record d r : forall f rest st flds, good_delim d -> r <> [] -> Forall (good_cell d) r -> is_start st ->
  (st = StartField \/ r <> [Plain []]) ->
  csv_stream d f (write_record d r ++ rest) (mkCsv st [] flds)
  = bind (csv_stream d true rest csv_init) (fun rows => Ok ((flds ++ map cell_text r) :: rows)).
Proof.
  unfold write_record. induction r as [|c r IH]; intros f rest st flds Hd Hne HF Hst Hst2; [congruence|].
  inversion HF as [|? ? Hc HF']; subst. destruct r as [|c2 r].
  - simpl map. simpl join. rewrite <- app_assoc. cbn [app].
    rewrite stream_cell_nl; auto. destruct Hst2; [auto|right; congruence].
  - change (join [d] (map write_cell (c :: c2 :: r))) with (write_cell c ++ [d] ++ join [d] (map write_cell (c2 :: r))).
    rewrite <- !app_assoc. cbn [app].
    rewrite stream_cell_delim by assumption.
    change (ch_nl :: rest) with ([ch_nl] ++ rest). rewrite app_assoc. rewrite IH; try assumption; try discriminate; [|right; reflexivity|left; reflexivity].
    simpl map. rewrite <- app_assoc. reflexivity.
Qed.

Lemma stream_table d rs : good_delim d -> Forall (good_record d) rs -> forall f, (f = true \/ rs <> []) ->
  csv_stream d f (write_table d rs) csv_init = Ok (map (map cell_text) rs).
Proof.
  intros Hd H. induction H as [|r rs (H1 & H2 & H3) HF IH]; intros f Hf.
  - destruct Hf as [->|Hf]; [reflexivity|congruence].
  - unfold write_table. simpl. fold (write_table d rs). unfold csv_init.
    rewrite stream_record; auto; [|left; reflexivity].
    rewrite IH by auto. reflexivity.
Qed.

Lemma in_join c sep l : In c (join sep l) -> In c sep \/ exists x, In x l /\ In c x.
Proof.
  induction l as [|x l IH]; [intros []|]. destruct l as [|y l].
  - simpl. intros H. right. exists x. auto.
  - change (join sep (x :: y :: l)) with (x ++ sep ++ join sep (y :: l)).
    rewrite !in_app_iff. intros [H|[H|H]]; auto.
    + right. exists x. split; [left; reflexivity|exact H].
    + destruct (IH H) as [|(z & Hz & Hc)]; auto. right. exists z. split; [right; exact Hz|exact Hc].
Qed.

Lemma cell_no_cr d c : good_cell d c -> ~ In ch_cr (write_cell c).
Proof.
  destruct c as [t|t]; cbn [write_cell good_cell].
  - intros (H & _). apply one_line_no_cr; exact H.
  - intros H [E|Hi]; [discriminate|]. apply in_app_or in Hi. destruct Hi as [Hi|[E|[]]]; [|discriminate].
    apply in_flat_map in Hi. destruct Hi as (x & Hx & Hi).
    destruct (Ascii.eqb x dquote).
    + destruct Hi as [E|[E|[]]]; discriminate.
    + destruct Hi as [E|[]]. subst. contradiction.
Qed.

Lemma table_no_cr d rs : good_delim d -> Forall (good_record d) rs -> ~ In ch_cr (write_table d rs).
Proof.
  intros (Hd & _) H Hi. unfold write_table in Hi. apply in_concat in Hi. destruct Hi as (x & Hx & Hi).
  apply in_map_iff in Hx. destruct Hx as (r & <- & Hr). rewrite Forall_forall in H.
  destruct (H r Hr) as (_ & _ & HF). unfold write_record in Hi. apply in_app_or in Hi.
  destruct Hi as [Hi|[E|[]]]; [|discriminate]. apply in_join in Hi.
  destruct Hi as [[->|[]]|(y & Hy & Hi)]; [discriminate|].
  apply in_map_iff in Hy. destruct Hy as (c & <- & Hc). rewrite Forall_forall in HF.
  apply (cell_no_cr d c (HF c Hc) Hi).
Qed.

Lemma csv_reader_table d rs : good_delim d -> Forall (good_record d) rs ->
  csv_reader d (write_table d rs) = Ok (map (map cell_text) rs).
Proof.
  intros Hd H. unfold csv_reader, file_lines. rewrite universal_id by (apply table_no_cr; assumption).
  rewrite <- (proj1 (csv_stream_records d _ csv_init)). apply stream_table; auto.
Qed.

(* dictionary of columns *)
Lemma dict_get_set_eq {V} (d : dict V) k v : dict_get (dict_set d k v) k = Ok v.
Proof.
  induction d as [|[k' v'] d IH]; simpl.
  - rewrite text_eqb_refl. reflexivity.
  - destruct (text_eqb k' k) eqn:E; simpl; rewrite E; auto.
Qed.
Lemma dict_get_set_neq {V} (d : dict V) k k' v : k <> k' -> dict_get (dict_set d k v) k' = dict_get d k'.
Proof.
  intros H. induction d as [|[j v'] d IH]; simpl.
  - rewrite (text_eqb_neq k k') by exact H. reflexivity.
  - destruct (text_eqb j k) eqn:E; simpl.
    + apply text_eqb_spec in E. subst j. rewrite (text_eqb_neq k k') by exact H. reflexivity.
    + rewrite IH. reflexivity.
Qed.
Lemma dict_set_keys {V} (d : dict V) k v : In k (map fst d) -> map fst (dict_set d k v) = map fst d.
Proof.
  induction d as [|[j v'] d IH]; simpl; [intros []|]. intros H.
  destruct (text_eqb j k) eqn:E; simpl; auto. f_equal. apply IH.
  destruct H as [->|H]; auto. rewrite text_eqb_refl in E. discriminate.
Qed.
Lemma dict_set_new {V} (d : dict V) k v : ~ In k (map fst d) -> dict_set d k v = d ++ [(k, v)].
Proof.
  induction d as [|[j v'] d IH]; simpl; auto. intros H.
  rewrite text_eqb_neq by (intros ->; apply H; left; reflexivity).
  f_equal. apply IH. auto.
Qed.

(** one storing step per entry, without failure *)
Lemma store_all_get {V} (kvs : list (text * V)) : forall d k,
  dict_get (fold_left (fun d kv => dict_set d (fst kv) (snd kv)) kvs d) k =
  match find (fun kv => text_eqb (fst kv) k) (rev kvs) with
  | Some kv => Ok (snd kv)
  | None => dict_get d k
  end.
Proof.
  induction kvs as [|[k1 v1] kvs IH]; intros d k; [reflexivity|].
  cbn [fold_left fst snd rev]. rewrite IH.
  assert (F : forall (A : Type) (p : A -> bool) l x, find p (l ++ [x]) = match find p l with Some y => Some y | None => if p x then Some x else None end).
  { clear. intros A p l x. induction l as [|y l IHl]; simpl; auto. destruct (p y); auto. }
  rewrite F. destruct (find (fun kv => text_eqb (fst kv) k) (rev kvs)); auto.
  cbn [fst]. destruct (text_eqb k1 k) eqn:E; cbn [snd].
  - apply text_eqb_spec in E. subst. apply dict_get_set_eq.
  - apply dict_get_set_neq. intros ->. rewrite text_eqb_refl in E. discriminate.
Qed.

Lemma store_all_distinct {V} (kvs : list (text * V)) : forall d,
  NoDup (map fst (d ++ kvs)) ->
  fold_left (fun d kv => dict_set d (fst kv) (snd kv)) kvs d = d ++ kvs.
Proof.
  induction kvs as [|[k v] kvs IH]; intros d H; [rewrite app_nil_r; reflexivity|].
  cbn [fold_left fst snd]. rewrite dict_set_new.
  - rewrite IH.
    + rewrite <- app_assoc. reflexivity.
    + rewrite <- app_assoc. exact H.
  - rewrite map_app in H. simpl in H. apply NoDup_remove_2 in H. intros Hi. apply H. apply in_or_app. auto.
Qed.

Lemma column_ok (rows : list (list text)) w i : rows <> [] -> Forall (fun r => length r = w) rows -> (i < w)%nat ->
  column rows i = Ok (map (fun r => nth i r []) rows).
Proof.
  intros Hne H Hi. unfold column. destruct rows as [|r0 rows0]; [congruence|].
  apply mapM_ok. intros r Hr. apply py_get_nth. rewrite Forall_forall in H. rewrite (H r Hr). exact Hi.
Qed.

Lemma column_short (rows : list (list text)) w i : Forall (fun r => length r = w) rows -> (w <= i)%nat ->
  column rows i = Err IndexError.
Proof.
  intros H Hi. unfold column. destruct rows as [|r0 rows0]; [reflexivity|].
  inversion H as [|? ? H0 H1]; subst. simpl. rewrite py_get_out by (right; unfold zlen; lia). reflexivity.
Qed.

Definition store_columns (rows : list (list text)) (header : list text) : dict (list text) :=
  fold_left (fun d kv => dict_set d (fst kv) (snd kv))
    (map (fun ih => (snd ih, map (fun r => nth (fst ih) r []) rows)) (combine (seq 0 (length header)) header)) [].

Lemma csv_dict_fold (rows : list (list text)) w : rows <> [] -> Forall (fun r => length r = w) rows ->
  forall (ihs : list (nat * text)) d, Forall (fun ih => (fst ih < w)%nat) ihs ->
  foldM (fun d ih => col <- column rows (fst ih) ;; Ok (dict_set d (snd ih) col)) ihs d
  = Ok (fold_left (fun d kv => dict_set d (fst kv) (snd kv))
      (map (fun ih => (snd ih, map (fun r => nth (fst ih) r []) rows)) ihs) d).
Proof.
  intros Hne H. induction ihs as [|[i h] ihs IH]; intros d HF; [reflexivity|].
  inversion HF as [|? ? Hi HF']; subst. cbn [foldM fst snd map fold_left].
  rewrite (column_ok rows w i Hne H Hi). cbn [bind]. apply IH; exact HF'.
Qed.

Lemma csv_to_dict_ok d rs header rows :
  good_delim d -> Forall (good_record d) rs -> map (map cell_text) rs = header :: rows ->
  rows <> [] -> Forall (fun r => (length r = width rows)) rows -> (length header <= width rows)%nat ->
  single_line_header_csv_to_dict d (write_table d rs) = Ok (store_columns rows header).
Proof.
  intros Hd Hrs E Hne HF Hw. unfold single_line_header_csv_to_dict.
  rewrite csv_reader_table by assumption. cbn [bind]. rewrite E.
  rewrite (proj2 (rectangular_spec rows (width rows)) HF).
  rewrite (csv_dict_fold rows (width rows) Hne HF); [reflexivity|].
  apply Forall_forall. intros [i h] Hi. apply in_combine_l in Hi. apply in_seq in Hi. simpl. lia.
Qed.

Lemma find_combine_rev_spec (g : nat -> list text) header k : forall off,
  match find (fun kv : text * list text => text_eqb (fst kv) k) (rev (map (fun ih => (snd ih, g (fst ih))) (combine (seq off (length header)) header))) with
  | Some kv => exists j, nth_error header j = Some k /\ snd kv = g (off + j)%nat /\ (forall j', (j < j')%nat -> nth_error header j' <> Some k)
  | None => ~ In k header
  end.
Proof.
  assert (F : forall (A : Type) (p : A -> bool) l x, find p (l ++ [x]) = match find p l with Some y => Some y | None => if p x then Some x else None end).
  { clear. intros A p l x. induction l as [|y l IHl]; simpl; auto. destruct (p y); auto. }
  induction header as [|h header IH]; intros off; [simpl; auto|].
  cbn [length seq combine map rev]. rewrite F. specialize (IH (S off)).
  destruct (find _ (rev (map _ (combine (seq (S off) (length header)) header)))) as [kv|].
  - destruct IH as (j & H1 & H2 & H3). exists (S j). simpl. split; [exact H1|]. split.
    + rewrite H2. f_equal. lia.
    + intros [|j'] Hj; [lia|]. simpl. apply H3. lia.
  - cbn [fst snd]. destruct (text_eqb h k) eqn:Eh.
    + apply text_eqb_spec in Eh. subst h. exists O. simpl. split; [reflexivity|]. split; [rewrite Nat.add_0_r; reflexivity|].
      intros [|j'] Hj; [lia|]. simpl. intros Hn. apply IH. eapply nth_error_In; exact Hn.
    + intros [->|Hi]; [rewrite text_eqb_refl in Eh; discriminate|contradiction].
Qed.

Lemma store_columns_get rows header k :
  match dict_get (store_columns rows header) k with
  | Ok col => exists j, nth_error header j = Some k /\ col = map (fun r => nth j r []) rows /\
                        (forall j', (j < j')%nat -> nth_error header j' <> Some k)
  | Err e => e = KeyError /\ ~ In k header
  | Diverges => False
  end.
Proof.
  unfold store_columns. rewrite store_all_get.
  pose proof (find_combine_rev_spec (fun i => map (fun r => nth i r []) rows) header k 0) as H.
  destruct (find _ _) as [kv|]; [exact H|]. simpl. auto.
Qed.

Lemma store_columns_keys rows header : NoDup header ->
  store_columns rows header =
  combine header (map (fun i => map (fun r => nth i r []) rows) (seq 0 (length header))).
Proof.
  intros H. unfold store_columns. rewrite store_all_distinct.
  - simpl. generalize 0%nat. clear H. induction header as [|h header IH]; intros off; [reflexivity|].
    cbn [length seq combine map fst snd]. f_equal. apply IH.
  - simpl. replace (map fst _) with header; [exact H|].
    rewrite map_map. cbn [fst]. clear H. generalize 0%nat. induction header as [|h header IH]; intros off; [reflexivity|].
    cbn [length seq combine map snd]. f_equal. apply IH.
Qed.

(* ----------------------- blank separated lines -------------------- *)
Lemma fields_line_split toks line : fields_line toks line -> split_ws line = toks.
Proof.
  induction 1 as [ws Hws|ws tok toks rest Hws (Hne & Htok) HF IH Hrest].
  - apply split_ws_spaces_only; exact Hws.
  - rewrite split_ws_blank by exact Hws. rewrite split_ws_word; auto.
    + rewrite IH. reflexivity.
    + destruct Hrest as [->|(c & r & -> & Hc)]; [exact I|exact Hc].
Qed.

Lemma newline_is_space c : is_newline c = true -> is_space c = true.
Proof. destruct c as [[] [] [] [] [] [] [] []]; vm_compute; congruence. Qed.

Lemma split_ws_filter_end t : one_line t -> split_ws (t ++ [ch_nl]) = split_ws t.
Proof.
  intros _. induction t as [|c t IH]; [reflexivity|].
  cbn [app split_ws]. destruct (is_space c); [exact IH|].
  destruct t as [|d t]; [reflexivity|].
  change ((d :: t) ++ [ch_nl]) with (d :: t ++ [ch_nl]) in *. cbv iota.
  rewrite IH. reflexivity.
Qed.

Lemma join_space_split toks : Forall word toks -> split_ws (join (txt " ") toks) = toks.
Proof.
  induction 1 as [|w toks (Hne & Hw) HF IH]; [reflexivity|].
  destruct toks as [|w2 toks].
  - simpl. pose proof (split_ws_word w [] Hne Hw I) as E. rewrite app_nil_r in E. exact E.
  - change (join (txt " ") (w :: w2 :: toks)) with (w ++ " "%char :: join (txt " ") (w2 :: toks)).
    rewrite split_ws_word by (auto; reflexivity). f_equal.
    change (split_ws ([" "%char] ++ join (txt " ") (w2 :: toks)) = w2 :: toks).
    rewrite split_ws_blank by (repeat constructor). exact IH.
Qed.

Lemma split_ws_words t : Forall word (split_ws t).
Proof. apply split_ws_tokens. Qed.

Lemma file_lines_of_lines ls : Forall one_line ls -> file_lines (lines_text ls) = map (fun l => l ++ [ch_nl]) ls.
Proof.
  intros H. pose proof (file_lines_snoc ls [] H (Forall_nil _)) as E. rewrite !app_nil_r in E. exact E.
Qed.

Lemma skipn_mid {A} (a : list A) x b : skipn (S (length a)) (a ++ x :: b) = b.
Proof. induction a as [|y a IH]; [reflexivity|exact IH]. Qed.

Section Factories.
  Context {F : Type} (to_float : text -> result F) (div100 : F -> F).

  Lemma envi_plot_line_ok line w r fw fr : one_line line -> fields_line [w; r] line ->
    to_float w = Ok fw -> to_float r = Ok fr -> envi_plot_line to_float (line ++ [ch_nl]) = Ok (fw, fr).
  Proof.
    intros Hl HF Hw Hr. unfold envi_plot_line. rewrite remove_newlines_lf by exact Hl.
    rewrite join_space_split by apply split_ws_words. rewrite (fields_line_split _ _ HF), Hw, Hr. reflexivity.
  Qed.

  Lemma envi_plot_line_bad line toks : one_line line -> fields_line toks line -> length toks <> 2%nat ->
    envi_plot_line to_float (line ++ [ch_nl]) = Err ValueError.
  Proof.
    intros Hl HF Hn. unfold envi_plot_line. rewrite remove_newlines_lf by exact Hl.
    rewrite join_space_split by apply split_ws_words. rewrite (fields_line_split _ _ HF).
    destruct toks as [|a [|b [|c toks]]]; simpl in Hn; try reflexivity; lia.
  Qed.

  Lemma svc_line_ok line w a b r fw fr : one_line line -> fields_line [w; a; b; r] line ->
    to_float w = Ok fw -> to_float r = Ok fr -> svc_line to_float div100 (line ++ [ch_nl]) = Ok (fw, div100 fr).
  Proof.
    intros Hl HF Hw Hr. unfold svc_line. rewrite split_ws_filter_end by exact Hl.
    rewrite (fields_line_split _ _ HF), Hw, Hr. reflexivity.
  Qed.

  Lemma svc_line_bad line toks : one_line line -> fields_line toks line -> length toks <> 4%nat ->
    svc_line to_float div100 (line ++ [ch_nl]) = Err ValueError.
  Proof.
    intros Hl HF Hn. unfold svc_line. rewrite split_ws_filter_end by exact Hl.
    rewrite (fields_line_split _ _ HF).
    destruct toks as [|a [|b [|c [|d [|e toks]]]]]; simpl in Hn; try reflexivity; lia.
  Qed.

  Lemma mapM_Forall2 {A B} (f : A -> result B) l ys : Forall2 (fun x y => f x = Ok y) l ys -> mapM f l = Ok ys.
  Proof. induction 1 as [|x y l ys Hx _ IH]; simpl; auto. rewrite Hx. simpl. rewrite IH. reflexivity. Qed.

  Lemma svc_data_ind_found pre d post : Forall (fun l => starts_with (txt "data") l = false) pre ->
    starts_with (txt "data") d = true -> svc_data_ind (pre ++ d :: post) = S (length pre).
  Proof.
    intros H Hd. induction H as [|x pre Hx _ IH]; cbn [svc_data_ind app length].
    - rewrite Hd. reflexivity.
    - rewrite Hx, IH. reflexivity.
  Qed.

  Lemma svc_data_ind_none ls : Forall (fun l => starts_with (txt "data") l = false) ls -> svc_data_ind ls = length ls.
  Proof. induction 1 as [|x ls Hx _ IH]; cbn [svc_data_ind length]; auto. rewrite Hx, IH. reflexivity. Qed.

  Lemma is_prefix_app p t x : (length p <= length t)%nat -> is_prefix p (t ++ x) = is_prefix p t.
  Proof.
    revert t; induction p as [|a p IH]; intros [|b t] H; simpl in *; auto; try lia.
    rewrite IH by lia. reflexivity.
  Qed.

  Lemma starts_data_line l : starts_with (txt "data") (l ++ [ch_nl]) = starts_with (txt "data") l.
  Proof.
    unfold starts_with. destruct (Nat.le_gt_cases 4 (length l)) as [H|H].
    - apply is_prefix_app. exact H.
    - destruct l as [|a [|b [|c [|e l]]]]; try reflexivity; simpl in H; try lia;
        simpl; rewrite ?andb_false_r; reflexivity.
  Qed.

  Lemma strip_line l : strip (l ++ [ch_nl]) = strip l.
  Proof.
    unfold strip. destruct (Forall_Exists_dec (fun c => is_space c = true) (fun c => bool_dec (is_space c) true) l) as [H|H].
    - replace (lstrip (l ++ [ch_nl])) with (@nil ascii).
      + replace (lstrip l) with (@nil ascii); [reflexivity|].
        symmetry. rewrite <- (app_nil_r l). rewrite lstrip_app_space by exact H. reflexivity.
      + symmetry. rewrite lstrip_app_space by exact H. reflexivity.
    - assert (E : lstrip (l ++ [ch_nl]) = lstrip l ++ [ch_nl]).
      { clear -H. induction l as [|c l IH]; [inversion H|]. simpl.
        destruct (is_space c) eqn:Ec; [|reflexivity]. apply IH. inversion H; subst; [congruence|assumption]. }
      rewrite E. apply rstrip_app_space. repeat constructor.
  Qed.
End Factories.

(* ------------------------------ paths ----------------------------- *)
Lemma basename_join dir n : ~ In ch_slash n -> basename (dir ++ [ch_slash] ++ n) = n.
Proof.
  intros H. unfold basename. simpl app. rewrite rfind_last by exact H.
  replace (Z.to_nat (Z.of_nat (length dir) + 1)) with (length (dir ++ [ch_slash])) by (rewrite app_length; simpl; lia).
  change (dir ++ ch_slash :: n) with (dir ++ [ch_slash] ++ n). rewrite app_assoc.
  rewrite skipn_app, skipn_all, Nat.sub_diag. reflexivity.
Qed.

Lemma map_basename_join dir ns : Forall (fun n => ~ In ch_slash n) ns ->
  map basename (map (fun n => dir ++ [ch_slash] ++ n) ns) = ns.
Proof.
  induction 1 as [|n ns Hn _ IH]; [reflexivity|]. cbn [map]. rewrite basename_join, IH by exact Hn. reflexivity.
Qed.

Lemma concat_map_map {A B C} (f : A -> B) (g : C -> list A) l :
  concat (map (fun c => map f (g c)) l) = map f (concat (map g l)).
Proof. induction l as [|c l IH]; simpl; auto. rewrite IH, map_app. reflexivity. Qed.

Lemma all_files_names dir entries exts es full :
  Forall (fun n => ~ In ch_slash n) entries -> sanitized_extensions exts = Ok es ->
  get_all_files_in_dir dir entries exts full =
  Ok (let ns := concat (map (fun e => filter (glob_match e) entries) es) in
      if full then map (fun n => dir ++ [ch_slash] ++ n) ns else ns).
Proof.
  intros Hs He. unfold get_all_files_in_dir. rewrite He. cbn [bind]. f_equal. cbv zeta.
  rewrite concat_map_map. destruct full; [reflexivity|].
  apply map_basename_join. apply Forall_forall. intros n Hn.
  apply in_concat in Hn. destruct Hn as (x & Hx & Hn). apply in_map_iff in Hx.
  destruct Hx as (e & <- & _). apply filter_In in Hn. rewrite Forall_forall in Hs. apply Hs. tauto.
Qed.

Lemma start_with_names dir entries prefixes exts es full :
  Forall (fun n => ~ In ch_slash n) entries -> sanitized_extensions exts = Ok es ->
  get_files_in_dir_that_start_with dir entries prefixes exts full =
  Ok (let ns := concat (map (fun p => filter (starts_with p) (concat (map (fun e => filter (glob_match e) entries) es))) prefixes) in
      if full then map (path_join dir) ns else ns).
Proof.
  intros Hs He. unfold get_files_in_dir_that_start_with.
  rewrite (all_files_names dir entries exts es true Hs He). cbn [bind]. cbv zeta.
  rewrite map_basename_join; [reflexivity|].
  apply Forall_forall. intros n Hn.
  apply in_concat in Hn. destruct Hn as (x & Hx & Hn). apply in_map_iff in Hx.
  destruct Hx as (e & <- & _). apply filter_In in Hn. rewrite Forall_forall in Hs. apply Hs. tauto.
Qed.

Lemma sanitize_plain e : ~ In ch_dot e -> ~ In "*"%char e -> sanitize_ext e = e.
Proof.
  intros H1 H2. unfold sanitize_ext. rewrite (replace_single_notin ch_dot) by exact H1.
  apply (replace_single_notin "*"%char). exact H2.
Qed.
Lemma sanitize_dotted e : ~ In ch_dot e -> ~ In "*"%char e -> sanitize_ext (ch_dot :: e) = e /\ sanitize_ext (txt "*." ++ e) = e.
Proof.
  intros H1 H2. unfold sanitize_ext. rewrite !(replace_single_del ch_dot), !(replace_single_del "*"%char).
  assert (E1 : filter (fun x => negb (Ascii.eqb x ch_dot)) e = e).
  { rewrite <- (replace_single_del ch_dot). apply replace_single_notin; exact H1. }
  assert (E2 : filter (fun x => negb (Ascii.eqb x "*"%char)) e = e).
  { rewrite <- (replace_single_del "*"%char). apply replace_single_notin; exact H2. }
  split; simpl; rewrite E1; simpl; exact E2.
Qed.

Lemma path_join_rel a b : (forall r, b <> ch_slash :: r) -> a <> [] -> (forall r, a <> r ++ [ch_slash]) ->
  path_join a b = a ++ [ch_slash] ++ b.
Proof.
  intros Hb Ha1 Ha2. unfold path_join.
  replace (is_prefix [ch_slash] b) with false.
  - rewrite (text_eqb_neq a []) by exact Ha1.
    replace (ends_with [ch_slash] a) with false; [reflexivity|].
    symmetry. apply not_true_is_false. intros H. apply ends_with_spec in H. destruct H as (r & H). apply (Ha2 r H).
  - symmetry. apply not_true_is_false. intros H. apply is_prefix_spec in H. destruct H as (r & H). apply (Hb r H).
Qed.

(* ---------------------------- USGS files ---------------------------- *)
Lemma drop_slashes_not c t : c <> ch_slash -> drop_slashes (c :: t) = c :: t.
Proof. intros H. cbn [drop_slashes]. destruct (Ascii.eqb_spec c ch_slash); [contradiction|reflexivity]. Qed.

Lemma dirname_join base name : base <> [] -> (forall r, base <> r ++ [ch_slash]) -> ~ In ch_slash name ->
  dirname (base ++ [ch_slash] ++ name) = base.
Proof.
  intros H1 H2 H3. unfold dirname. simpl app. rewrite rfind_last by exact H3.
  replace (Z.to_nat (Z.of_nat (length base) + 1)) with (length base + 1)%nat by lia.
  rewrite firstn_app_2. cbn [firstn].
  destruct (exists_last H1) as (b & c & E).
  assert (Hc : c <> ch_slash) by (intros ->; apply (H2 b); exact E).
  destruct (forallb _ _) eqn:EF.
  - exfalso. rewrite forallb_forall in EF. specialize (EF c). apply Hc. apply Ascii.eqb_eq, EF.
    rewrite E. apply in_or_app. left. apply in_or_app. right. left. reflexivity.
  - rewrite rev_app_distr. cbn [rev app drop_slashes]. rewrite Ascii.eqb_refl.
    rewrite E, rev_app_distr. cbn [rev app]. rewrite drop_slashes_not by exact Hc.
    cbn [rev]. rewrite rev_involutive. reflexivity.
Qed.

Lemma dirname_plain name : ~ In ch_slash name -> dirname name = [].
Proof. intros H. unfold dirname. rewrite rfind_notin by exact H. reflexivity. Qed.

Lemma file_name_last n r : file_name n -> n <> r ++ [ch_slash].
Proof. intros [_ H] ->. apply H. apply in_or_app. right. left. reflexivity. Qed.

Lemma usgs_dir base filename : two_below base filename -> dirname (dirname filename) = base.
Proof.
  intros (sub & name & HS & HN & [[ -> -> ]|(H1 & H2 & -> )]).
  - change (txt "/") with [ch_slash]. rewrite dirname_join; [apply dirname_plain, HS|apply HS| |apply HN].
    intros r. apply file_name_last; exact HS.
  - change (txt "/") with [ch_slash] in *.
    replace (base ++ [ch_slash] ++ sub ++ [ch_slash] ++ name) with ((base ++ [ch_slash] ++ sub) ++ [ch_slash] ++ name)
      by (rewrite <- !app_assoc; reflexivity).
    rewrite dirname_join; [apply dirname_join; [exact H1|exact H2|apply HS]| | |apply HN].
    + destruct base; discriminate.
    + intros r E. destruct HS as [HS1 HS2]. destruct (exists_last HS1) as (s' & c & ->).
      rewrite !app_assoc in E. apply app_inj_tail in E. destruct E as [_ -> ].
      apply HS2. apply in_or_app. right; left; reflexivity.
Qed.

Definition txt_file_withb (words : list text) (n : text) : bool :=
  glob_match (txt "txt") n && existsb (fun w => contains w (lower n)) words.
Lemma txt_file_with_b words n : txt_file_withb words n = true <-> txt_file_with words n.
Proof.
  unfold txt_file_withb, txt_file_with, glob_match. change (text_eqb (txt "txt") (txt "*")) with false. cbv iota.
  rewrite !andb_true_iff, negb_true_iff, existsb_exists.
  change (ch_dot :: txt "txt") with (txt ".txt"). rewrite ends_with_spec. split.
  - intros [[H1 H2] (w & Hw & HC)]. apply contains_spec in HC. destruct HC as (a & b & HC).
    split; [|split; [exact H2|exists w, a, b; auto]].
    intros r ->. cbn in H1. discriminate.
  - intros (H1 & H2 & w & a & b & Hw & HC). split; [split; [|exact H2]|].
    + destruct (is_prefix [ch_dot] n) eqn:E; [|reflexivity]. apply is_prefix_spec in E. destruct E as (r & ->). exfalso. apply (H1 r). reflexivity.
    + exists w. split; [exact Hw|]. apply contains_spec. eauto.
Qed.

Lemma find_named_gen words base l : Forall file_name l ->
  find_named words (map (fun n => base ++ [ch_slash] ++ n) (filter (glob_match (txt "txt")) l))
  = option_map (fun n => base ++ [ch_slash] ++ n) (find (txt_file_withb words) l).
Proof.
  unfold find_named. induction 1 as [|n l [_ Hn] _ IH]; [reflexivity|].
  cbn [filter find]. unfold txt_file_withb at 1. destruct (glob_match (txt "txt") n); cbn [andb]; [|exact IH].
  cbn [map find]. rewrite basename_join by exact Hn. destruct (existsb _ words); [reflexivity|exact IH].
Qed.

Lemma find_named_first words entries base n : Forall file_name (entries (base ++ txt "/")) ->
  first_such (txt_file_with words) n (entries (base ++ txt "/")) ->
  find_named words (usgs_txt_files entries base) = Some (base ++ [ch_slash] ++ n).
Proof.
  intros HF (before & after & E & HP & HB). unfold usgs_txt_files. rewrite find_named_gen by exact HF.
  change [ch_slash] with (txt "/") in *. rewrite E. clear HF E.
  induction HB as [|m before Hm _ IH]; cbn [app find].
  - rewrite (proj2 (txt_file_with_b words n) HP). reflexivity.
  - destruct (txt_file_withb words m) eqn:Em; [apply txt_file_with_b in Em; contradiction|exact IH].
Qed.

Lemma find_named_none words entries base : Forall file_name (entries (base ++ txt "/")) ->
  Forall (fun m => ~ txt_file_with words m) (entries (base ++ txt "/")) ->
  find_named words (usgs_txt_files entries base) = None.
Proof.
  intros HF HB. unfold usgs_txt_files. rewrite find_named_gen by exact HF. change [ch_slash] with (txt "/").
  clear HF. induction HB as [|m l Hm _ IH]; [reflexivity|]. cbn [find].
  destruct (txt_file_withb words m) eqn:Em; [apply txt_file_with_b in Em; contradiction|exact IH].
Qed.
