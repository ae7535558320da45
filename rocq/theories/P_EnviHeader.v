(** Proofs about the ENVI header reader and writer. *)
From Verif Require Import M_Envi Spec_Envi.
From Coq Require Import ZifyBool.
Open Scope Z_scope.
Open Scope list_scope.

Lemma find_z_notin c t : ~ In c t -> find_z c t = -1.
Proof. intros H. unfold find_z. apply find_char_None in H. rewrite H. reflexivity. Qed.

Lemma find_z_here c a b : ~ In c a -> find_z c (a ++ c :: b) = zlen a.
Proof. intros H. unfold find_z. rewrite find_char_here by exact H. reflexivity. Qed.

Lemma find_z_after c a b : ~ In c a -> find_z c (a ++ b) = -1 \/ zlen a <= find_z c (a ++ b).
Proof.
  intros H. unfold find_z. rewrite find_char_app_notin by exact H.
  destruct (find_char c b); [right; unfold zlen; lia|left; reflexivity].
Qed.

Lemma find_z_range c t : -1 <= find_z c t < zlen t \/ t = [].
Proof.
  unfold find_z. destruct (find_char c t) eqn:E.
  - apply find_char_lt in E. left. unfold zlen. lia.
  - destruct t; [right; reflexivity|left]. rewrite zlen_cons. pose proof (zlen_nonneg t). lia.
Qed.

Lemma slice_prefix (a b : text) : py_slice (a ++ b) 0 (zlen a) = a.
Proof.
  rewrite py_slice_in; try lia.
  - rewrite Z.sub_0_r. change (Z.to_nat 0) with 0%nat. simpl skipn.
    unfold zlen. rewrite Nat2Z.id, firstn_app, Nat.sub_diag. simpl.
    rewrite firstn_all, app_nil_r. reflexivity.
  - apply zlen_nonneg.
  - rewrite zlen_app. pose proof (zlen_nonneg b). lia.
Qed.

Lemma slice_suffix (a b : text) : py_slice_from (a ++ b) (zlen a) = b.
Proof.
  unfold py_slice_from. rewrite py_slice_in.
  - rewrite zlen_app.
    replace (Z.to_nat (zlen a)) with (length a) by (unfold zlen; lia).
    rewrite skipn_app, Nat.sub_diag, skipn_all. simpl.
    replace (zlen a + zlen b - zlen a) with (zlen b) by lia.
    unfold zlen. rewrite Nat2Z.id. apply firstn_all.
  - apply zlen_nonneg.
  - rewrite zlen_app. pose proof (zlen_nonneg b). lia.
  - lia.
Qed.

Lemma slice_suffix1 (a : text) c b : py_slice_from (a ++ c :: b) (zlen a + 1) = b.
Proof.
  replace (a ++ c :: b) with ((a ++ [c]) ++ b) by (rewrite <- app_assoc; reflexivity).
  replace (zlen a + 1) with (zlen (a ++ [c])) by (rewrite zlen_app; reflexivity).
  apply slice_suffix.
Qed.

(* ----------------------- one line at a time ----------------------- *)

Lemma step_newline rest : header_step (ch_nl :: rest) = Ok ([], [], rest).
Proof.
  assert (Hn : find_z ch_nl (ch_nl :: rest) = 0) by reflexivity.
  assert (Hb : is_bracket_entry (ch_nl :: rest) = false).
  { unfold is_bracket_entry. rewrite Hn.
    destruct (find_z "{"%char (ch_nl :: rest) =? -1) eqn:E; auto.
    pose proof (find_z_range "{"%char (ch_nl :: rest)) as [H|H]; [|discriminate].
    replace (find_z "{"%char (ch_nl :: rest) <? 0) with false by lia. reflexivity. }
  assert (He : is_equals_entry (ch_nl :: rest) = false).
  { unfold is_equals_entry. rewrite Hn.
    destruct (find_z "="%char (ch_nl :: rest) =? -1) eqn:E; auto.
    pose proof (find_z_range "="%char (ch_nl :: rest)) as [H|H]; [|discriminate].
    destruct ((find_z "{"%char (ch_nl :: rest) <? 0) && negb (find_z "{"%char (ch_nl :: rest) =? -1)); auto.
    replace (find_z "="%char (ch_nl :: rest) <? 0) with false by lia. reflexivity. }
  unfold header_step. rewrite Hb, He. unfold entry_has_newline. rewrite Hn.
  change (negb (0 =? -1)) with true. cbv iota.
  f_equal. f_equal. exact (slice_suffix1 [] ch_nl rest).
Qed.

Lemma step_skip_line (line rest : text) :
  ~ In ch_nl line -> ~ In "="%char line -> ~ In "{"%char line ->
  header_step (line ++ ch_nl :: rest) = Ok ([], [], rest).
Proof.
  intros H1 H2 H3.
  assert (Hn : find_z ch_nl (line ++ ch_nl :: rest) = zlen line) by (apply find_z_here; exact H1).
  assert (H3' : ~ In "{"%char (line ++ [ch_nl])).
  { rewrite in_app_iff. intros [H|[H|[]]]; [contradiction|discriminate]. }
  assert (H2' : ~ In "="%char (line ++ [ch_nl])).
  { rewrite in_app_iff. intros [H|[H|[]]]; [contradiction|discriminate]. }
  pose proof (find_z_after "{"%char (line ++ [ch_nl]) rest H3') as Hb.
  pose proof (find_z_after "="%char (line ++ [ch_nl]) rest H2') as He.
  rewrite <- app_assoc in Hb, He. cbn [app] in Hb, He.
  rewrite zlen_app in Hb, He. change (zlen [ch_nl]) with 1 in Hb, He.
  pose proof (zlen_nonneg line) as Hl.
  unfold header_step, is_bracket_entry, is_equals_entry, entry_has_newline. rewrite Hn.
  destruct Hb as [Hb|Hb]; destruct He as [He|He].
  - rewrite Hb, He. simpl. replace (zlen line =? -1) with false by lia. simpl.
    rewrite slice_suffix1. reflexivity.
  - rewrite Hb. simpl. rewrite andb_false_r.
    replace (find_z "="%char (line ++ ch_nl :: rest) =? -1) with false by lia.
    replace (find_z "="%char (line ++ ch_nl :: rest) <? zlen line) with false by lia.
    replace (zlen line =? -1) with false by lia. simpl.
    rewrite slice_suffix1. reflexivity.
  - rewrite He. simpl.
    replace (find_z "{"%char (line ++ ch_nl :: rest) =? -1) with false by lia.
    replace (find_z "{"%char (line ++ ch_nl :: rest) <? zlen line) with false by lia.
    replace (zlen line =? -1) with false by lia. simpl.
    rewrite slice_suffix1. reflexivity.
  - replace (find_z "{"%char (line ++ ch_nl :: rest) =? -1) with false by lia.
    replace (find_z "{"%char (line ++ ch_nl :: rest) <? zlen line) with false by lia.
    replace (find_z "="%char (line ++ ch_nl :: rest) =? -1) with false by lia.
    replace (find_z "="%char (line ++ ch_nl :: rest) <? zlen line) with false by lia.
    replace (zlen line =? -1) with false by lia. simpl.
    rewrite slice_suffix1. reflexivity.
Qed.

Lemma step_equals (k v rest : text) :
  ~ In ch_nl k -> ~ In "="%char k -> ~ In "{"%char k ->
  ~ In ch_nl v -> ~ In "="%char v -> ~ In "{"%char v ->
  header_step (k ++ "="%char :: v ++ ch_nl :: rest) = Ok (k, v, rest).
Proof.
  intros K1 K2 K3 V1 V2 V3.
  set (line := k ++ "="%char :: v).
  assert (El : k ++ "="%char :: v ++ ch_nl :: rest = line ++ ch_nl :: rest).
  { unfold line. rewrite <- app_assoc. reflexivity. }
  rewrite El.
  assert (L1 : ~ In ch_nl line).
  { unfold line. rewrite in_app_iff. simpl. intros [H|[H|H]]; try contradiction. discriminate. }
  assert (L3 : ~ In "{"%char line).
  { unfold line. rewrite in_app_iff. simpl. intros [H|[H|H]]; try contradiction. discriminate. }
  assert (Hn : find_z ch_nl (line ++ ch_nl :: rest) = zlen line) by (apply find_z_here; exact L1).
  assert (He : find_z "="%char (line ++ ch_nl :: rest) = zlen k).
  { rewrite <- El. apply find_z_here. exact K2. }
  assert (H3' : ~ In "{"%char (line ++ [ch_nl])).
  { rewrite in_app_iff. intros [H|[H|[]]]; [contradiction|discriminate]. }
  pose proof (find_z_after "{"%char (line ++ [ch_nl]) rest H3') as Hb.
  rewrite <- app_assoc in Hb. cbn [app] in Hb. rewrite zlen_app in Hb.
  change (zlen [ch_nl]) with 1 in Hb.
  assert (Hk : zlen line = zlen k + 1 + zlen v).
  { unfold line. rewrite zlen_app, zlen_cons. lia. }
  pose proof (zlen_nonneg k) as Pk. pose proof (zlen_nonneg v) as Pv.
  assert (B : is_bracket_entry (line ++ ch_nl :: rest) = false).
  { unfold is_bracket_entry. rewrite Hn. destruct Hb as [Hb|Hb].
    - rewrite Hb. reflexivity.
    - replace (find_z "{"%char (line ++ ch_nl :: rest) =? -1) with false by lia.
      replace (find_z "{"%char (line ++ ch_nl :: rest) <? zlen line) with false by lia. reflexivity. }
  assert (E : is_equals_entry (line ++ ch_nl :: rest) = true).
  { unfold is_equals_entry. rewrite Hn, He.
    replace (zlen k =? -1) with false by lia.
    replace ((find_z "{"%char (line ++ ch_nl :: rest) <? zlen line)
             && negb (find_z "{"%char (line ++ ch_nl :: rest) =? -1)) with false by lia.
    replace (zlen k <? zlen line) with true by lia. reflexivity. }
  unfold header_step. rewrite B, E, Hn.
  rewrite slice_prefix, slice_suffix1. unfold split_two, line.
  rewrite split_char_app by exact K2. rewrite split_char_notin by exact V2. reflexivity.
Qed.

Lemma step_brace (k body rest : text) :
  ~ In ch_nl k -> ~ In "="%char k -> ~ In "{"%char k -> ~ In "}"%char k ->
  ~ In "}"%char body -> In ch_nl rest ->
  header_step (k ++ "="%char :: " "%char :: "{"%char :: body ++ "}"%char :: rest)
  = Ok (k, " "%char :: "{"%char :: body, rest).
Proof.
  intros K1 K2 K3 K4 B1 R.
  set (t := k ++ "="%char :: " "%char :: "{"%char :: body ++ "}"%char :: rest).
  set (pre := k ++ ["="%char; " "%char]).
  assert (Et : t = pre ++ "{"%char :: body ++ "}"%char :: rest).
  { unfold t, pre. rewrite <- app_assoc. reflexivity. }
  assert (P3 : ~ In "{"%char pre).
  { unfold pre. rewrite in_app_iff. simpl. intros [H|[H|[H|[]]]]; try contradiction; discriminate. }
  assert (P1 : ~ In ch_nl (pre ++ ["{"%char])).
  { unfold pre. rewrite !in_app_iff. simpl.
    intros [[H|[H|[H|[]]]]|[H|[]]]; try contradiction; discriminate. }
  assert (Hb : find_z "{"%char t = zlen pre) by (rewrite Et; apply find_z_here; exact P3).
  assert (Hn : zlen pre + 1 <= find_z ch_nl t).
  { pose proof (find_z_after ch_nl (pre ++ ["{"%char]) (body ++ "}"%char :: rest) P1) as H.
    rewrite <- app_assoc in H. cbn [app] in H. rewrite <- Et in H.
    rewrite zlen_app in H. change (zlen ["{"%char]) with 1 in H.
    destruct H as [H|H]; [|exact H]. exfalso.
    unfold find_z in H. destruct (find_char ch_nl t) eqn:E; [lia|].
    apply find_char_None in E. apply E. rewrite Et. apply in_or_app. right.
    right. apply in_or_app. right. right. exact R. }
  pose proof (zlen_nonneg pre) as Pp.
  assert (B : is_bracket_entry t = true).
  { unfold is_bracket_entry. rewrite Hb.
    replace (zlen pre =? -1) with false by lia.
    replace (zlen pre <? find_z ch_nl t) with true by lia. reflexivity. }
  set (pre2 := k ++ "="%char :: " "%char :: "{"%char :: body).
  assert (Et2 : t = pre2 ++ "}"%char :: rest).
  { unfold t, pre2. rewrite <- app_assoc. reflexivity. }
  assert (P4 : ~ In "}"%char pre2).
  { unfold pre2. rewrite in_app_iff. simpl.
    intros [H|[H|[H|[H|H]]]]; try contradiction; discriminate. }
  assert (Hr : find_z "}"%char t = zlen pre2) by (rewrite Et2; apply find_z_here; exact P4).
  unfold header_step. rewrite B, Hr, Et2.
  rewrite slice_prefix, slice_suffix1. unfold split_once, pre2.
  rewrite find_char_here by exact K2. cbn [bind fst snd].
  rewrite firstn_app, Nat.sub_diag, firstn_all. cbn [firstn]. rewrite app_nil_r.
  replace (k ++ "="%char :: " "%char :: "{"%char :: body)
    with ((k ++ ["="%char]) ++ " "%char :: "{"%char :: body) by (rewrite <- app_assoc; reflexivity).
  replace (S (length k)) with (length (k ++ ["="%char])) by (rewrite app_length; simpl; lia).
  rewrite skipn_app, Nat.sub_diag, skipn_all. reflexivity.
Qed.

(* ----------------------- loop over clean lines -------------------- *)

Lemma loop_step fuel t d k v t' :
  t <> [] -> header_step t = Ok (k, v, t') ->
  header_loop (S fuel) t d = header_loop fuel t' (store_entry d k v).
Proof. intros Hne H. destruct t; [congruence|]. cbn [header_loop]. rewrite H. reflexivity. Qed.

Lemma dict_set_notin {V} (d : dict V) k v : ~ In k (map fst d) -> dict_set d k v = d ++ [(k, v)].
Proof.
  induction d as [|[k' v'] d IH]; simpl; intros H; auto.
  rewrite text_eqb_neq by (intros E; apply H; left; exact E).
  f_equal. apply IH. intros E; apply H; right; exact E.
Qed.

Definition blank : text * text := ([], []).

Lemma store_blank d : store_entry (blank :: d) [] [] = blank :: d.
Proof. reflexivity. Qed.

Lemma single_space_space : Forall (fun c => is_space c = true) [" "%char].
Proof. repeat constructor. Qed.

Lemma clean_key_store d k v :
  clean_key k ->
  store_entry (blank :: d) (k ++ [" "%char]) v = blank :: dict_set d k (strip v).
Proof.
  intros Hk. unfold store_entry.
  rewrite rstrip_app_space by apply single_space_space.
  rewrite stripped_rstrip by apply (ck_stripped _ Hk).
  rewrite stripped_lstrip by apply (ck_stripped _ Hk).
  unfold blank. cbn [dict_set]. rewrite text_eqb_neq.
  - reflexivity.
  - intros E. apply (ck_nonempty _ Hk). symmetry; exact E.
Qed.

(** The text read back for an entry, before conversion *)
Definition entry_text (e : entry) : text :=
  match e with
  | EInt _ z => str_of_Z z
  | EText _ v => v
  | EBrace _ body => "{"%char :: rstrip body
  | EFloats _ toks => "{"%char :: join (txt ", ") toks
  end.

Definition entry_line (e : entry) : text :=
  fst (entry_item e) ++ txt " = " ++ str_of_wval (snd (entry_item e)) ++ [ch_nl].

Lemma key_space_clean k c : clean_key k -> c <> " "%char -> In c (k ++ [" "%char]) -> In c k.
Proof. intros _ Hc H. apply in_app_or in H. destruct H as [H|[H|[]]]; congruence. Qed.

Lemma strip_space_clean v : strip v = v -> strip (" "%char :: v) = v.
Proof.
  intros H. pose proof (strip_pad [" "%char] v [] single_space_space (Forall_nil _) H) as E.
  rewrite app_nil_r in E. exact E.
Qed.

Lemma rstrip_cons c t : is_space c = false -> rstrip (c :: t) = c :: rstrip t.
Proof.
  intros H. unfold rstrip. simpl rev.
  assert (L : forall u, lstrip (u ++ [c]) = lstrip u ++ [c]).
  { induction u as [|x u IH]; simpl; [rewrite H; reflexivity|].
    destruct (is_space x); auto. }
  rewrite L, rev_app_distr. reflexivity.
Qed.

Lemma strip_brace body : strip (" "%char :: "{"%char :: body) = "{"%char :: rstrip body.
Proof.
  unfold strip. change (lstrip (" "%char :: "{"%char :: body)) with ("{"%char :: body).
  apply rstrip_cons. reflexivity.
Qed.

Lemma token_last_nospace toks :
  toks <> [] -> Forall clean_token toks ->
  exists t c, join (txt ", ") toks = t ++ [c] /\ is_space c = false.
Proof.
  induction toks as [|x toks IH]; intros Hne HF; [congruence|].
  inversion HF as [|? ? Hx HF']; subst.
  destruct toks as [|y toks].
  - simpl. destruct Hx as [Hx HFx]. destruct (exists_last Hx) as (t & c & ->).
    exists t, c. split; auto. apply Forall_app in HFx. destruct HFx as [_ H].
    inversion H; tauto.
  - destruct (IH ltac:(discriminate) HF') as (t & c & E & Hc).
    exists (x ++ txt ", " ++ t), c. split; auto.
    change (join (txt ", ") (x :: y :: toks)) with (x ++ txt ", " ++ join (txt ", ") (y :: toks)).
    rewrite E, <- !app_assoc. reflexivity.
Qed.

Lemma rstrip_join toks :
  toks <> [] -> Forall clean_token toks -> rstrip (join (txt ", ") toks) = join (txt ", ") toks.
Proof.
  intros Hne HF. destruct (token_last_nospace toks Hne HF) as (t & c & E & Hc).
  rewrite E. unfold rstrip. rewrite rev_app_distr. simpl. rewrite Hc. simpl.
  rewrite rev_involutive. reflexivity.
Qed.

Lemma join_notin c sep toks :
  Forall (fun t => ~ In c t) toks -> ~ In c sep -> ~ In c (join sep toks).
Proof.
  induction toks as [|x toks IH]; intros HF Hs; [intros []|].
  inversion HF as [|? ? Hx HF']; subst.
  destruct toks as [|y toks]; [exact Hx|].
  change (join sep (x :: y :: toks)) with (x ++ sep ++ join sep (y :: toks)).
  rewrite !in_app_iff. intros [H|[H|H]]; try contradiction. apply IH in H; auto.
Qed.

Lemma clean_token_notin toks c :
  Forall clean_token toks -> (c = ","%char \/ c = "{"%char \/ c = "}"%char \/ is_space c = true) ->
  Forall (fun t => ~ In c t) toks.
Proof.
  intros HF Hc. eapply Forall_impl; [|exact HF].
  intros t [_ Ht] Hin. rewrite Forall_forall in Ht. specialize (Ht c Hin).
  destruct Hc as [->|[->|[->|Hc]]]; try tauto. destruct Ht as [E _]. congruence.
Qed.

Ltac len := rewrite !app_length; change (length (txt " = ")) with 3%nat;
  change (length [ch_nl]) with 1%nat; lia.

(** One clean line costs one or two passes and stores its entry. *)
Lemma loop_entry_set e d fuel rest :
  clean_entry e ->
  (length (entry_line e) <= fuel)%nat ->
  exists fuel', (fuel - length (entry_line e) <= fuel')%nat /\
  header_loop fuel (entry_line e ++ rest) (blank :: d)
  = header_loop fuel' rest (blank :: dict_set d (entry_key e) (entry_text e)).
Proof.
  intros [Hk He] Hf. unfold entry_line in *.
  assert (KS : forall c, c <> " "%char -> ~ In c (entry_key e) -> ~ In c (entry_key e ++ [" "%char])).
  { intros c Hc Hi H. apply in_app_or in H. destruct H as [H|[H|[]]]; congruence. }
  pose proof (KS ch_nl ltac:(discriminate) (ck_nl _ Hk)) as K1.
  pose proof (KS "="%char ltac:(discriminate) (ck_eq _ Hk)) as K2.
  pose proof (KS "{"%char ltac:(discriminate) (ck_lb _ Hk)) as K3.
  pose proof (KS "}"%char ltac:(discriminate) (ck_rb _ Hk)) as K4.
  assert (Plain : forall v, str_of_wval (snd (entry_item e)) = v -> clean_value v -> entry_text e = v ->
     fst (entry_item e) = entry_key e ->
     exists fuel', (fuel - length (fst (entry_item e) ++ txt " = " ++ str_of_wval (snd (entry_item e)) ++ [ch_nl]) <= fuel')%nat /\
     header_loop fuel ((fst (entry_item e) ++ txt " = " ++ str_of_wval (snd (entry_item e)) ++ [ch_nl]) ++ rest) (blank :: d)
     = header_loop fuel' rest (blank :: dict_set d (entry_key e) (entry_text e))).
  { intros v Ev Cv Et Ef. rewrite Ev, Ef in *. rewrite Et.
    destruct fuel as [|f]; [rewrite !app_length in Hf; simpl in Hf; lia|].
    exists f. split; [len|].
    assert (El : (entry_key e ++ txt " = " ++ v ++ [ch_nl]) ++ rest
                 = (entry_key e ++ [" "%char]) ++ "="%char :: (" "%char :: v) ++ ch_nl :: rest).
    { rewrite <- !app_assoc. simpl. rewrite <- ?app_assoc. reflexivity. }
    rewrite El.
    rewrite (loop_step f _ _ (entry_key e ++ [" "%char]) (" "%char :: v) rest).
    - rewrite clean_key_store by assumption. rewrite strip_space_clean by apply (cv_stripped _ Cv).
      reflexivity.
    - destruct (entry_key e); discriminate.
    - apply step_equals; auto.
      + intros [H|H]; [discriminate|]. apply (cv_nl _ Cv); exact H.
      + intros [H|H]; [discriminate|]. apply (cv_eq _ Cv); exact H.
      + intros [H|H]; [discriminate|]. apply (cv_lb _ Cv); exact H. }
  assert (Brace : forall body, str_of_wval (snd (entry_item e)) = txt "{" ++ body ++ txt "}" ->
     ~ In "}"%char body -> entry_text e = "{"%char :: rstrip body ->
     fst (entry_item e) = entry_key e ->
     exists fuel', (fuel - length (fst (entry_item e) ++ txt " = " ++ str_of_wval (snd (entry_item e)) ++ [ch_nl]) <= fuel')%nat /\
     header_loop fuel ((fst (entry_item e) ++ txt " = " ++ str_of_wval (snd (entry_item e)) ++ [ch_nl]) ++ rest) (blank :: d)
     = header_loop fuel' rest (blank :: dict_set d (entry_key e) (entry_text e))).
  { intros body Ev Cb Et Ef. rewrite Ev, Ef in *. rewrite Et.
    destruct fuel as [|[|f]]; [rewrite !app_length in Hf; simpl in Hf; lia
      | rewrite !app_length in Hf; simpl in Hf; lia |].
    exists f. split; [len|].
    assert (El : (entry_key e ++ txt " = " ++ (txt "{" ++ body ++ txt "}") ++ [ch_nl]) ++ rest
                 = (entry_key e ++ [" "%char]) ++ "="%char :: " "%char :: "{"%char :: body
                   ++ "}"%char :: ch_nl :: rest).
    { rewrite <- !app_assoc. simpl. rewrite <- ?app_assoc. reflexivity. }
    rewrite El.
    rewrite (loop_step (S f) _ _ (entry_key e ++ [" "%char]) (" "%char :: "{"%char :: body) (ch_nl :: rest)).
    - rewrite (loop_step f (ch_nl :: rest) _ [] [] rest); [|discriminate|apply step_newline].
      rewrite clean_key_store by assumption. rewrite store_blank.
      rewrite strip_brace. reflexivity.
    - destruct (entry_key e); discriminate.
    - apply step_brace; auto. left; reflexivity. }
  destruct e as [k z|k v|k body|k toks]; cbn [entry_key] in *.
  - apply (Plain (str_of_Z z)); try reflexivity.
    constructor; try (apply str_of_Z_notin; [reflexivity|discriminate]).
    apply str_of_Z_stripped.
  - destruct He as (Hv & _). apply (Plain v); auto.
  - destruct He as (Hb & _). apply (Brace body); auto.
  - destruct He as (_ & Hne & HF). apply (Brace (join (txt ", ") toks)); auto.
    + apply join_notin; [|intros [H|[H|[]]]; discriminate].
      apply clean_token_notin with (c := "}"%char); auto.
    + simpl. rewrite rstrip_join by assumption. reflexivity.
Qed.

Lemma loop_entry e d fuel rest :
  clean_entry e -> ~ In (entry_key e) (map fst d) ->
  (length (entry_line e) <= fuel)%nat ->
  exists fuel', (fuel - length (entry_line e) <= fuel')%nat /\
  header_loop fuel (entry_line e ++ rest) (blank :: d)
  = header_loop fuel' rest (blank :: d ++ [(entry_key e, entry_text e)]).
Proof.
  intros He Hn Hf. destruct (loop_entry_set e d fuel rest He Hf) as (f & H1 & H2). exists f. split; [exact H1|].
  rewrite H2, dict_set_notin by exact Hn. reflexivity.
Qed.
(** Entries with repeated keys: each store overwrites *)
Lemma loop_entries_set es d fuel :
  Forall clean_entry es -> (length (flat_map entry_line es) <= fuel)%nat ->
  header_loop fuel (flat_map entry_line es) (blank :: d)
  = Ok (blank :: fold_left (fun d e => dict_set d (entry_key e) (entry_text e)) es d).
Proof.
  revert d fuel; induction es as [|e es IH]; intros d fuel HF Hf; simpl.
  - destruct fuel; reflexivity.
  - inversion HF as [|? ? He HF']; subst. simpl in Hf. rewrite app_length in Hf.
    destruct (loop_entry_set e d fuel (flat_map entry_line es) He) as (fuel' & Hle & E); [lia|].
    rewrite E, IH; auto. lia.
Qed.

Lemma loop_entries es d fuel :
  Forall clean_entry es -> NoDup (map fst d ++ map entry_key es) ->
  (length (flat_map entry_line es) <= fuel)%nat ->
  header_loop fuel (flat_map entry_line es) (blank :: d)
  = Ok (blank :: d ++ map (fun e => (entry_key e, entry_text e)) es).
Proof.
  revert d fuel; induction es as [|e es IH]; intros d fuel HF HN Hf; simpl.
  - rewrite app_nil_r. destruct fuel; reflexivity.
  - inversion HF as [|? ? He HF']; subst. simpl in Hf. rewrite app_length in Hf.
    cbn [map] in HN.
    destruct (loop_entry e d fuel (flat_map entry_line es) He) as (fuel' & Hle & E).
    + apply NoDup_remove_2 in HN. intros H. apply HN. apply in_or_app. left; exact H.
    + lia.
    + rewrite E, IH; auto.
      * rewrite <- app_assoc. reflexivity.
      * rewrite map_app. cbn [map fst]. rewrite <- app_assoc. exact HN.
      * lia.
Qed.

(* ----------------------- newline clean-up ------------------------- *)

Lemma replace_crnl_notin t : ~ In ch_cr t -> str_replace [ch_cr; ch_nl] [ch_nl] t = t.
Proof.
  unfold str_replace. induction t as [|x t IH]; intros H; auto.
  cbn [replace_from]. cbn [is_prefix].
  destruct (Ascii.eqb_spec ch_cr x) as [E|E]; [exfalso; apply H; left; auto|].
  simpl. f_equal. apply IH. intros H2; apply H; right; exact H2.
Qed.

Lemma cleanup_id t : ~ In ch_cr t -> cleanup_newlines t = t.
Proof.
  intros H. unfold cleanup_newlines, cleanup_newlines_on, posix_linesep. rewrite replace_crnl_notin by exact H.
  rewrite (replace_single_notin ch_cr) by exact H. apply replace_single_self.
Qed.

(* ----------------------- conversion ------------------------------- *)

Lemma text_in_spec t l : text_in t (map txt l) = true <-> In (string_of_list_ascii t) l.
Proof.
  unfold text_in. rewrite existsb_exists. split.
  - intros (x & Hx & E). apply in_map_iff in Hx. destruct Hx as (s & <- & Hs).
    apply text_eqb_spec in E. subst t. unfold txt.
    rewrite string_of_list_ascii_of_string. exact Hs.
  - intros H. exists t. split; [|apply text_eqb_refl].
    apply in_map_iff. exists (string_of_list_ascii t). split; auto.
    unfold txt. apply list_ascii_of_string_of_list_ascii.
Qed.

Lemma float_key_spec k : text_in (lower k) bracket_ndarr_entries = true <-> float_key k.
Proof. apply text_in_spec. Qed.
Lemma int_key_spec k : text_in (lower k) equals_int_entries = true <-> int_key k.
Proof. apply text_in_spec. Qed.

Lemma filter_join p toks :
  (forall c, p c = negb (Ascii.eqb c " "%char)) ->
  Forall (fun t => ~ In " "%char t) toks ->
  filter p (join (txt ", ") toks) = join [","%char] toks.
Proof.
  intros Hp. induction toks as [|x toks IH]; intros HF; auto.
  inversion HF as [|? ? Hx HF']; subst.
  assert (Fx : filter p x = x).
  { clear - Hp Hx. induction x as [|c x IH]; simpl; auto.
    rewrite Hp. destruct (Ascii.eqb_spec c " "%char) as [->|Hc]; [exfalso; apply Hx; left; reflexivity|].
    simpl. f_equal. apply IH. intros H; apply Hx; right; exact H. }
  destruct toks as [|y toks]; [exact Fx|].
  change (join (txt ", ") (x :: y :: toks)) with (x ++ txt ", " ++ join (txt ", ") (y :: toks)).
  change (join [","%char] (x :: y :: toks)) with (x ++ [","%char] ++ join [","%char] (y :: toks)).
  rewrite !filter_app, IH by exact HF'. rewrite Fx. f_equal. f_equal.
  simpl. rewrite !Hp. reflexivity.
Qed.

Lemma bracket_floats {F} (pf : text -> option F) toks xs :
  toks <> [] -> Forall clean_token toks -> Forall2 (fun t x => pf t = Some x) toks xs ->
  bracket_entry_to_ndarray F pf ("{"%char :: join (txt ", ") toks) = Ok xs.
Proof.
  intros Hne HF H2. unfold bracket_entry_to_ndarray.
  assert (N1 : ~ In ch_nl ("{"%char :: join (txt ", ") toks)).
  { intros [H|H]; [discriminate|]. revert H. apply join_notin.
    - apply clean_token_notin; auto.
    - intros [H|[H|[]]]; discriminate. }
  rewrite (replace_single_notin ch_nl) by exact N1.
  rewrite (replace_single_del " "%char). simpl filter.
  rewrite (filter_join (fun x => negb (Ascii.eqb x " "%char))) by
    (auto; apply clean_token_notin; auto).
  rewrite (replace_single_del "{"%char). simpl filter.
  assert (B1 : filter (fun x => negb (Ascii.eqb x "{"%char)) (join [","%char] toks) = join [","%char] toks).
  { rewrite <- replace_single_del. apply replace_single_notin. apply join_notin.
    - apply clean_token_notin; auto.
    - intros [H|[]]; discriminate. }
  rewrite B1. rewrite (replace_single_notin "}"%char).
  2:{ apply join_notin; [apply clean_token_notin; auto|intros [H|[]]; discriminate]. }
  rewrite split_join; auto.
  2:{ apply clean_token_notin; auto. }
  clear - H2. induction H2 as [|t x ts xs E _ IH]; simpl; auto.
  unfold py_float at 1. rewrite E. simpl. rewrite IH. reflexivity.
Qed.

Lemma convert_entry_reads {F} (pf : text -> option F) e v :
  clean_entry e -> reads_as pf e v ->
  convert_entry F pf (entry_key e, entry_text e) = Ok (entry_key e, v).
Proof.
  intros [Hk He] Hr. unfold convert_entry.
  destruct Hr as [k z Hi|k z Hi|k v|k body|k toks xs H2]; cbn [entry_key entry_text] in *.
  - replace (text_in (lower k) bracket_ndarr_entries) with false.
    2:{ symmetry. apply not_true_is_false. rewrite float_key_spec. exact He. }
    apply int_key_spec in Hi. rewrite Hi.
    rewrite replace_single_notin.
    + rewrite py_int_str. reflexivity.
    + apply str_of_Z_notin; [reflexivity|discriminate].
  - replace (text_in (lower k) bracket_ndarr_entries) with false.
    2:{ symmetry. apply not_true_is_false. rewrite float_key_spec. exact He. }
    replace (text_in (lower k) equals_int_entries) with false; [reflexivity|].
    symmetry. apply not_true_is_false. rewrite int_key_spec. exact Hi.
  - destruct He as (_ & Hi & Hf).
    replace (text_in (lower k) bracket_ndarr_entries) with false.
    2:{ symmetry. apply not_true_is_false. rewrite float_key_spec. exact Hf. }
    replace (text_in (lower k) equals_int_entries) with false; [reflexivity|].
    symmetry. apply not_true_is_false. rewrite int_key_spec. exact Hi.
  - destruct He as (_ & _ & Hi & Hf).
    replace (text_in (lower k) bracket_ndarr_entries) with false.
    2:{ symmetry. apply not_true_is_false. rewrite float_key_spec. exact Hf. }
    replace (text_in (lower k) equals_int_entries) with false; [reflexivity|].
    symmetry. apply not_true_is_false. rewrite int_key_spec. exact Hi.
  - destruct He as (Hf & Hne & HF). apply float_key_spec in Hf. rewrite Hf.
    rewrite (bracket_floats pf toks xs) by assumption. reflexivity.
Qed.

Lemma write_header_lines es :
  write_envi_header (map entry_item es) = txt "ENVI" ++ ch_nl :: flat_map entry_line es.
Proof.
  unfold write_envi_header. f_equal. simpl. f_equal.
  induction es as [|e es IH]; simpl; auto. rewrite IH. reflexivity.
Qed.

Lemma entry_line_no_cr e : clean_entry e -> ~ In ch_cr (entry_line e).
Proof.
  intros [Hk He]. unfold entry_line. rewrite !in_app_iff.
  intros [H|[H|[H|H]]].
  - destruct e; cbn [entry_item fst entry_key] in *; apply (ck_cr _ Hk); exact H.
  - simpl in H. destruct H as [H|[H|[H|[]]]]; discriminate.
  - destruct e as [k z|k v|k body|k toks]; simpl in H.
    + revert H. apply str_of_Z_notin; [reflexivity|discriminate].
    + destruct He as (Hv & _). apply (cv_cr _ Hv); exact H.
    + destruct He as (_ & Hc & _). destruct H as [H|H]; [discriminate|].
      apply in_app_or in H. destruct H as [H|[H|[]]]; [apply Hc; exact H|discriminate].
    + destruct He as (_ & _ & HF). destruct H as [H|H]; [discriminate|].
      apply in_app_or in H. destruct H as [H|[H|[]]]; [|discriminate].
      revert H. apply join_notin; [apply clean_token_notin; auto|].
      intros [H|[H|[]]]; discriminate.
  - destruct H as [H|[]]; discriminate.
Qed.

Lemma header_round_trip {F} (pf : text -> option F) es vs fuel :
  Forall clean_entry es -> NoDup (map entry_key es) -> Forall2 (reads_as pf) es vs ->
  (length (write_envi_header (map entry_item es)) <= fuel)%nat ->
  read_envi_header F pf fuel (write_envi_header (map entry_item es))
  = Ok (combine (map entry_key es) vs).
Proof.
  intros HF HN HR Hf. unfold read_envi_header. rewrite write_header_lines in *.
  rewrite cleanup_id.
  2:{ intros H. apply in_app_or in H. destruct H as [H|H].
      - simpl in H. repeat (destruct H as [H|H]; [discriminate|]). destruct H.
      - destruct H as [H|H]; [discriminate|]. apply in_flat_map in H.
        destruct H as (e & He & Hc). rewrite Forall_forall in HF.
        apply (entry_line_no_cr e (HF e He)). exact Hc. }
  destruct fuel as [|f]; [rewrite app_length in Hf; simpl in Hf; lia|].
  rewrite (loop_step f _ _ [] [] (flat_map entry_line es)); [|discriminate|].
  2:{ apply step_skip_line; simpl; intros H;
      repeat (destruct H as [H|H]; [discriminate|]); destruct H. }
  change (store_entry [] [] []) with (blank :: @nil (text * text)).
  rewrite loop_entries; auto.
  2:{ rewrite app_length in Hf. simpl in Hf. lia. }
  simpl bind. unfold blank. simpl dict_del.
  clear HN Hf. induction HR as [|e v es vs Hev HR IH]; cbn [map mapM combine]; auto.
  inversion HF as [|? ? He HF']; subst.
  rewrite (convert_entry_reads pf e v) by assumption. cbn [bind].
  rewrite IH by assumption. reflexivity.
Qed.

Lemma dict_set_get_eq {V} (d : dict V) k v : dict_get (dict_set d k v) k = Ok v.
Proof.
  induction d as [|[k' v'] d IH]; simpl; [now rewrite text_eqb_refl|].
  destruct (text_eqb k' k) eqn:E; simpl; rewrite E; auto.
Qed.
Lemma dict_set_get_neq {V} (d : dict V) k k2 v : k <> k2 -> dict_get (dict_set d k v) k2 = dict_get d k2.
Proof.
  intros N. induction d as [|[k' v'] d IH]; simpl; [now rewrite text_eqb_neq|].
  destruct (text_eqb k' k) eqn:E; simpl; [|now rewrite IH].
  apply text_eqb_spec in E. subst k'. now rewrite (text_eqb_neq k k2) by exact N.
Qed.
Lemma fold_set_get {V} (f : entry -> V) es : forall d k,
  (forall e, In e es -> entry_key e <> k) ->
  dict_get (fold_left (fun d e => dict_set d (entry_key e) (f e)) es d) k = dict_get d k.
Proof.
  induction es as [|e es IH]; intros d k H; simpl; [reflexivity|].
  rewrite IH by (intros; apply H; now right). apply dict_set_get_neq. apply H. now left.
Qed.
(** Every item of the folded dictionary is some entry's *)
Lemma dict_set_In {V} (d : dict V) k v x : In x (dict_set d k v) -> x = (k, v) \/ In x d.
Proof.
  induction d as [|[k' v'] d IH]; simpl; [intros [<-|[]]; auto|].
  destruct (text_eqb k' k) eqn:E; simpl; intros [<-|H]; auto.
  - apply text_eqb_spec in E. subst. auto.
  - destruct (IH H); auto.
Qed.
Lemma fold_set_In {V} (f : entry -> V) es : forall d x,
  In x (fold_left (fun d e => dict_set d (entry_key e) (f e)) es d) ->
  In x d \/ exists e, In e es /\ x = (entry_key e, f e).
Proof.
  induction es as [|e es IH]; intros d x H; simpl in *; [now left|].
  destruct (IH _ _ H) as [H1|(e' & H1 & H2)].
  - destruct (dict_set_In _ _ _ _ H1) as [->|H2]; [right; exists e; auto|now left].
  - right. exists e'. auto.
Qed.
Lemma header_loop_written es fuel : Forall clean_entry es ->
  (length (write_envi_header (map entry_item es)) <= fuel)%nat ->
  header_loop fuel (cleanup_newlines (write_envi_header (map entry_item es))) []
  = Ok (blank :: fold_left (fun d e => dict_set d (entry_key e) (entry_text e)) es []).
Proof.
  intros HF Hf. rewrite write_header_lines in *. rewrite cleanup_id.
  2:{ intros H. apply in_app_or in H. destruct H as [H|H].
      - simpl in H. repeat (destruct H as [H|H]; [discriminate|]). destruct H.
      - destruct H as [H|H]; [discriminate|]. apply in_flat_map in H.
        destruct H as (e & He & Hc). rewrite Forall_forall in HF.
        apply (entry_line_no_cr e (HF e He)). exact Hc. }
  destruct fuel as [|f]; [rewrite app_length in Hf; simpl in Hf; lia|].
  rewrite (loop_step f _ _ [] [] (flat_map entry_line es)); [|discriminate|].
  2:{ apply step_skip_line; simpl; intros H;
      repeat (destruct H as [H|H]; [discriminate|]); destruct H. }
  change (store_entry [] [] []) with (blank :: @nil (text * text)).
  rewrite loop_entries_set; auto. rewrite app_length in Hf. simpl in Hf. lia.
Qed.
Lemma Forall2_split_at {A B} (P : A -> B -> Prop) l1 a l2 m : Forall2 P (l1 ++ a :: l2) m ->
  exists b, P a b /\ nth_error m (length l1) = Some b.
Proof.
  revert m. induction l1 as [|x l1 IH]; intros m H; inversion H; subst; simpl; eauto.
Qed.
Lemma header_last_wins {F} (pf : text -> option F) es1 e es2 vs fuel :
  Forall clean_entry (es1 ++ e :: es2) -> Forall2 (reads_as pf) (es1 ++ e :: es2) vs ->
  (forall e', In e' es2 -> entry_key e' <> entry_key e) ->
  (length (write_envi_header (map entry_item (es1 ++ e :: es2))) <= fuel)%nat ->
  exists d v, read_envi_header F pf fuel (write_envi_header (map entry_item (es1 ++ e :: es2))) = Ok d /\
    nth_error vs (length es1) = Some v /\ dict_get d (entry_key e) = Ok v.
Proof.
  intros HF HR HN Hf. unfold read_envi_header. rewrite header_loop_written by assumption. cbn [bind]. unfold blank. simpl dict_del.
  set (es := es1 ++ e :: es2) in *. set (D := fold_left (fun d e => dict_set d (entry_key e) (entry_text e)) es (@nil (text * text))).
  assert (ALL : forall x, In x D -> exists k v, convert_entry F pf x = Ok (k, v) /\ k = fst x).
  { intros x Hx. destruct (fold_set_In _ _ _ _ Hx) as [[]|(e' & He' & ->)].
    assert (exists v, reads_as pf e' v) as [v Hv]. { clear - HR He'. induction HR as [|a b l1 l2 Hab HR IH]; [destruct He'|]. destruct He' as [->|H1]; eauto. }
    rewrite Forall_forall in HF. exists (entry_key e'), v. rewrite (convert_entry_reads pf e' v (HF _ He') Hv). auto. }
  assert (EX : exists d, mapM (convert_entry F pf) D = Ok d /\ forall k t, dict_get D k = Ok t -> exists v, convert_entry F pf (k, t) = Ok (k, v) /\ dict_get d k = Ok v).
  { clear - ALL. induction D as [|[k0 t0] D IH]; [exists []; split; [reflexivity|discriminate]|].
    destruct IH as (d & Hd & G); [intros x Hx; apply ALL; now right|]. destruct (ALL (k0, t0) (or_introl eq_refl)) as (k1 & v1 & Hc & ->). cbn [fst] in Hc.
    exists ((k0, v1) :: d). cbn [mapM]. rewrite Hc, Hd. split; [reflexivity|]. intros k t. cbn [dict_get].
    destruct (text_eqb k0 k) eqn:E; [|apply G]. apply text_eqb_spec in E. subst k. intros Et. injection Et as <-. eauto. }
  destruct EX as (d & Hd & G). destruct (Forall2_split_at _ _ _ _ _ HR) as (v & Hv & Nv).
  exists d, v. split; [exact Hd|]. split; [exact Nv|].
  assert (GE : dict_get D (entry_key e) = Ok (entry_text e)).
  { unfold D, es. rewrite fold_left_app. cbn [fold_left]. rewrite fold_set_get by exact HN. apply dict_set_get_eq. }
  destruct (G _ _ GE) as (v' & Hc & Hg). rewrite Forall_forall in HF.
  rewrite (convert_entry_reads pf e v) in Hc by (auto; apply HF; unfold es; apply in_or_app; right; now left). injection Hc as <-. exact Hg.
Qed.

(* ----------------------- termination ------------------------------ *)

Lemma cleanup_In c t : In c (cleanup_newlines t) -> c = ch_nl \/ In c t.
Proof.
  unfold cleanup_newlines, cleanup_newlines_on, posix_linesep. rewrite replace_single_self, replace_single.
  rewrite in_flat_map. intros (x & Hx & Hc).
  assert (Hr : forall s u y, In y (replace_from s [ch_cr; ch_nl] [ch_nl] u) -> y = ch_nl \/ In y u).
  { intros s u. revert s. induction u as [|z u IH]; intros s y H; [destruct H|].
    cbn [replace_from] in H. destruct s.
    - destruct (is_prefix [ch_cr; ch_nl] (z :: u)).
      + simpl in H. destruct H as [H|H]; [left; auto|]. apply IH in H. simpl. tauto.
      + destruct H as [H|H]; [simpl; auto|]. apply IH in H. simpl; tauto.
    - apply IH in H. simpl; tauto. }
  destruct (Ascii.eqb_spec x ch_cr).
  - destruct Hc as [Hc|[]]; left; auto.
  - destruct Hc as [<-|[]]. apply (Hr O t x Hx).
Qed.

Lemma firstn_find c t k : find_char c t = Some k -> ~ In c (firstn k t).
Proof.
  intros H. apply find_char_Some in H. destruct H as (a & b & -> & <- & Hn).
  rewrite firstn_app, firstn_all, Nat.sub_diag. simpl. rewrite app_nil_r. exact Hn.
Qed.

Lemma slice_from_skipn (t : text) (k : nat) : py_slice_from t (Z.of_nat k) = skipn k t.
Proof.
  unfold py_slice_from, py_slice, slice_bound.
  replace (Z.of_nat k <? 0) with false by lia.
  replace (zlen t <? 0) with false by (pose proof (zlen_nonneg t); lia).
  rewrite Z.min_id. unfold zlen.
  destruct (Nat.le_gt_cases k (length t)).
  - rewrite Z.min_l by lia. rewrite Nat2Z.id.
    replace (Z.to_nat (Z.of_nat (length t) - Z.of_nat k)) with (length (skipn k t))
      by (rewrite skipn_length; lia).
    apply firstn_all.
  - rewrite Z.min_r by lia. rewrite Z.sub_diag. simpl.
    rewrite skipn_all2 by lia. reflexivity.
Qed.

Lemma braces_closed_skipn n t : braces_closed t -> braces_closed (skipn n t).
Proof.
  intros H a b E. apply (H (firstn n t ++ a) b). rewrite <- app_assoc, <- E.
  symmetry. apply firstn_skipn.
Qed.

(** Every pass on a text with closed braces raises or leaves a proper suffix. *)
Lemma step_progress t :
  t <> [] -> braces_closed t ->
  match header_step t with
  | Ok (_, _, t') => exists n, (0 < n)%nat /\ t' = skipn n t
  | Err _ => True
  | Diverges => False
  end.
Proof.
  intros Hne Hb. unfold header_step.
  destruct (is_bracket_entry t) eqn:EB.
  - unfold is_bracket_entry in EB.
    destruct (find_z "{"%char t =? -1) eqn:E1; [discriminate|].
    unfold find_z in E1. destruct (find_char "{"%char t) as [kb|] eqn:E2; [|discriminate].
    apply find_char_Some in E2. destruct E2 as (a & b & Et & _ & _).
    pose proof (Hb a b Et) as Hin.
    assert (HinT : In "}"%char t) by (rewrite Et; apply in_or_app; right; right; exact Hin).
    unfold split_once.
    destruct (find_char "}"%char t) as [kr|] eqn:E3.
    2:{ apply find_char_None in E3. contradiction. }
    unfold find_z. rewrite E3.
    destruct (find_char "="%char (py_slice t 0 (Z.of_nat kr))); simpl; [|exact I].
    exists (S kr). split; [lia|].
    replace (Z.of_nat kr + 1) with (Z.of_nat (S kr)) by lia. apply slice_from_skipn.
  - destruct (is_equals_entry t) eqn:EE.
    + unfold is_equals_entry in EE. unfold split_two.
      destruct (find_z "="%char t =? -1) eqn:E1; [discriminate|].
      destruct ((find_z "{"%char t <? find_z ch_nl t) && negb (find_z "{"%char t =? -1)); [discriminate|].
      destruct (find_z "="%char t <? find_z ch_nl t) eqn:E4; [|discriminate].
      unfold find_z in E1, E4 |- *.
      destruct (find_char ch_nl t) as [kn|]; [|destruct (find_char "="%char t); lia].
      destruct (split_char "="%char (py_slice t 0 (Z.of_nat kn))) as [|x [|y [|z l]]]; simpl; auto.
      exists (S kn). split; [lia|].
      replace (Z.of_nat kn + 1) with (Z.of_nat (S kn)) by lia. apply slice_from_skipn.
    + destruct (entry_has_newline t) eqn:EN.
      * unfold entry_has_newline, find_z in *. destruct (find_char ch_nl t) as [kn|]; [|discriminate].
        exists (S kn). split; [lia|].
        replace (Z.of_nat kn + 1) with (Z.of_nat (S kn)) by lia. apply slice_from_skipn.
      * exists 1%nat. split; [lia|]. exact (slice_from_skipn t 1).
Qed.

Lemma loop_terminates fuel t d :
  braces_closed t -> (length t <= fuel)%nat -> header_loop fuel t d <> Diverges.
Proof.
  revert t d; induction fuel as [|f IH]; intros t d Hb Hl.
  - destruct t; [discriminate|simpl in Hl; lia].
  - destruct t as [|c r]; [discriminate|].
    pose proof (step_progress (c :: r) ltac:(discriminate) Hb) as Hp.
    cbn [header_loop].
    destruct (header_step (c :: r)) as [[[k v] t']|e|]; simpl; try discriminate; [|contradiction].
    destruct Hp as (n & Hn & ->). apply IH.
    + apply braces_closed_skipn; exact Hb.
    + rewrite skipn_length. simpl length. simpl in Hl. lia.
Qed.

Lemma mapM_not_div {A B} (f : A -> result B) l :
  (forall x, f x <> Diverges) -> mapM f l <> Diverges.
Proof.
  intros H. induction l as [|x l IH]; simpl; [discriminate|].
  specialize (H x). destruct (f x); simpl; try discriminate; [|contradiction].
  destruct (mapM f l); simpl; try discriminate. contradiction.
Qed.

Lemma convert_not_div {F} (pf : text -> option F) kv : convert_entry F pf kv <> Diverges.
Proof.
  destruct kv as [k v]. unfold convert_entry.
  destruct (text_in (lower k) bracket_ndarr_entries).
  - unfold bracket_entry_to_ndarray.
    match goal with |- context [mapM ?f ?l] =>
      pose proof (mapM_not_div f l) as H; destruct (mapM f l) end; simpl; try discriminate.
    intros _. apply H; auto. intros x. unfold py_float. destruct (pf x); discriminate.
  - destruct (text_in (lower k) equals_int_entries); [|discriminate].
    unfold py_int. match goal with |- context [DecimalString.NilZero.int_of_string ?x] =>
      destruct (DecimalString.NilZero.int_of_string x) end; discriminate.
Qed.

(** cleaning the newlines keeps "every brace is closed" *)
Lemma replace_crnl_braces t : forall s,
  braces_closed t -> braces_closed (replace_from s [ch_cr; ch_nl] [ch_nl] t).
Proof.
  assert (Keep : forall u s y, y <> ch_nl -> y <> ch_cr ->
            (s = O \/ (s = 1%nat /\ exists u', u = ch_nl :: u')) ->
            (In y (replace_from s [ch_cr; ch_nl] [ch_nl] u) <-> In y u)).
  { induction u as [|z u IH]; intros s y N1 N2 Hs; [simpl; tauto|].
    cbn [replace_from]. destruct Hs as [->|[-> (u' & Eu)]].
    - destruct (is_prefix [ch_cr; ch_nl] (z :: u)) eqn:P.
      + cbn [is_prefix] in P. destruct (Ascii.eqb_spec ch_cr z) as [<-|]; [|discriminate].
        destruct u as [|z2 u2]; [discriminate|]. cbn [is_prefix andb] in P. rewrite andb_true_r in P.
        destruct (Ascii.eqb_spec ch_nl z2) as [<-|]; [|discriminate].
        simpl app. simpl length. change (2 - 1)%nat with 1%nat.
        split.
        * intros [H|H]; [congruence|]. right. apply (IH 1%nat); auto. right; eauto.
        * intros [H|H]; [congruence|]. right. apply (IH 1%nat); auto. right; eauto.
      + split; intros [H|H]; try (left; exact H); right; apply (IH O); auto.
    - injection Eu as -> ->. split; intros H.
      + right. apply (IH O); auto.
      + destruct H as [H|H]; [congruence|]. apply (IH O); auto. }
  assert (Gen : forall u s, (s = O \/ (s = 1%nat /\ exists u', u = ch_nl :: u')) ->
            braces_closed u -> braces_closed (replace_from s [ch_cr; ch_nl] [ch_nl] u)).
  { induction u as [|z u IH]; intros s Hs Hb.
    - intros a b E. destruct a; discriminate.
    - assert (Hb' : braces_closed u) by (apply (braces_closed_skipn 1 (z :: u)); exact Hb).
      cbn [replace_from]. destruct Hs as [->|[-> (u' & Eu)]].
      + destruct (is_prefix [ch_cr; ch_nl] (z :: u)) eqn:P.
        * cbn [is_prefix] in P. destruct (Ascii.eqb_spec ch_cr z) as [<-|]; [|discriminate].
          destruct u as [|z2 u2]; [discriminate|]. cbn [is_prefix andb] in P. rewrite andb_true_r in P.
          destruct (Ascii.eqb_spec ch_nl z2) as [<-|]; [|discriminate].
          simpl app. simpl length. change (2 - 1)%nat with 1%nat.
          assert (Hx : braces_closed (replace_from 1 [ch_cr; ch_nl] [ch_nl] (ch_nl :: u2))).
          { apply IH; auto. right; eauto. }
          intros a b E. destruct a as [|x a]; [discriminate|].
          injection E as _ E. apply (Hx a b E).
        * intros a b E. destruct a as [|x a].
          -- injection E as -> E. rewrite <- E. apply Keep; try discriminate; auto.
             apply (Hb [] u). reflexivity.
          -- injection E as _ E. apply (IH O ltac:(auto) Hb' a b E).
      + injection Eu as -> ->. apply (IH O); auto. }
  intros s Hb. destruct s as [|s].
  - apply Gen; auto.
  - (* more characters to skip: drop them first *)
    assert (Sk : forall n u, replace_from n [ch_cr; ch_nl] [ch_nl] u
                 = replace_from O [ch_cr; ch_nl] [ch_nl] (skipn n u)).
    { induction n as [|n IHn]; intros u; [reflexivity|]. destruct u as [|x u]; [reflexivity|].
      cbn [replace_from skipn]. apply IHn. }
    rewrite Sk. apply Gen; auto. apply braces_closed_skipn; exact Hb.
Qed.

Lemma replace_cr_braces t : braces_closed t -> braces_closed (str_replace [ch_cr] [ch_nl] t).
Proof.
  rewrite replace_single. induction t as [|z t IH]; intros Hb a b E.
  - destruct a; discriminate.
  - simpl in E. assert (Hb' : braces_closed t) by (apply (braces_closed_skipn 1 (z :: t)); exact Hb).
    destruct (Ascii.eqb_spec z ch_cr) as [->|Hz].
    + destruct a as [|x a]; [discriminate|]. injection E as _ E. apply (IH Hb' a b E).
    + destruct a as [|x a].
      * injection E as -> E. pose proof (Hb [] t eq_refl) as Hin. rewrite <- E.
        apply in_flat_map. exists "}"%char. split; auto. simpl. auto.
      * injection E as _ E. apply (IH Hb' a b E).
Qed.

Lemma cleanup_braces t : braces_closed t -> braces_closed (cleanup_newlines t).
Proof.
  intros H. unfold cleanup_newlines, cleanup_newlines_on, posix_linesep. rewrite replace_single_self.
  apply replace_cr_braces. apply replace_crnl_braces. exact H.
Qed.

Lemma cleanup_length t : (length (cleanup_newlines t) <= length t)%nat.
Proof.
  unfold cleanup_newlines, cleanup_newlines_on, posix_linesep. rewrite replace_single_self, replace_single.
  assert (H1 : forall u, length (flat_map (fun x => if Ascii.eqb x ch_cr then [ch_nl] else [x]) u) = length u).
  { induction u as [|x u IH]; simpl; auto. rewrite app_length, IH.
    destruct (Ascii.eqb x ch_cr); reflexivity. }
  rewrite H1. unfold str_replace.
  assert (H2 : forall u s, (length (replace_from s [ch_cr; ch_nl] [ch_nl] u) <= length u)%nat).
  { induction u as [|x u IH]; intros s; [simpl; lia|]. cbn [replace_from]. destruct s.
    - destruct (is_prefix [ch_cr; ch_nl] (x :: u)).
      + simpl app. simpl length. specialize (IH 1%nat). simpl in IH. lia.
      + simpl length. specialize (IH O). lia.
    - simpl length. specialize (IH s). lia. }
  apply H2.
Qed.

Lemma read_header_terminates {F} (pf : text -> option F) fuel t :
  braces_closed t -> (length t <= fuel)%nat -> read_envi_header F pf fuel t <> Diverges.
Proof.
  intros Hb Hl. unfold read_envi_header.
  pose proof (loop_terminates fuel (cleanup_newlines t) [] (cleanup_braces t Hb)) as H.
  pose proof (cleanup_length t) as Hc.
  destruct (header_loop fuel (cleanup_newlines t) []) as [d|e|]; simpl; try discriminate.
  - apply mapM_not_div. apply convert_not_div.
  - intros _. apply H; [lia|reflexivity].
Qed.

(** fuel does not matter once the loop has an answer *)
Lemma loop_fuel f f' t d r :
  header_loop f t d = r -> r <> Diverges -> (f <= f')%nat -> header_loop f' t d = r.
Proof.
  revert f' t d; induction f as [|f IH]; intros f' t d H Hr Hle.
  - destruct t as [|c t]; simpl in H; [destruct f'; exact H|congruence].
  - destruct f' as [|f']; [lia|]. destruct t as [|c t]; [exact H|].
    cbn [header_loop] in *. destruct (header_step (c :: t)) as [e|e|]; simpl in *; auto.
    apply IH; auto. lia.
Qed.

(** a clean header followed by such an entry *)
Lemma loop_after_entries es fuel rest :
  Forall clean_entry es -> forall d,
  NoDup (map fst d ++ map entry_key es) ->
  (length (flat_map entry_line es) <= fuel)%nat ->
  exists fuel', header_loop fuel (flat_map entry_line es ++ rest) (blank :: d)
  = header_loop fuel' rest (blank :: d ++ map (fun e => (entry_key e, entry_text e)) es).
Proof.
  revert fuel; induction es as [|e es IH]; intros fuel HF d HN Hf; simpl.
  - exists fuel. rewrite app_nil_r. reflexivity.
  - inversion HF as [|? ? He HF']; subst. simpl in Hf. rewrite app_length in Hf.
    cbn [map] in HN. rewrite <- app_assoc.
    destruct (loop_entry e d fuel (flat_map entry_line es ++ rest) He) as (fuel' & Hle & E).
    + apply NoDup_remove_2 in HN. intros H. apply HN. apply in_or_app. left; exact H.
    + lia.
    + destruct (IH fuel' HF' (d ++ [(entry_key e, entry_text e)])) as (f2 & E2).
      * rewrite map_app. cbn [map fst]. rewrite <- app_assoc. exact HN.
      * lia.
      * exists f2. rewrite E, E2, <- app_assoc. reflexivity.
Qed.

(** Every pass raises, leaves a proper suffix that starts after a newline or a closing brace (or the
    text has no newline), or leaves the text as it is. *)
Lemma removelast_slice (t : text) : py_slice t 0 (-1) = removelast t.
Proof.
  unfold py_slice, slice_bound. change (0 <? 0) with false. change (-1 <? 0) with true. cbv iota.
  rewrite (Z.min_l 0) by apply zlen_nonneg. change (Z.to_nat 0) with O. cbn [skipn].
  rewrite removelast_firstn_len. f_equal. unfold zlen. lia.
Qed.
Lemma firstn_upto c t k : find_char c t = Some k -> exists u, firstn (S k) t = u ++ [c].
Proof.
  intros H. apply find_char_Some in H as (a & b & -> & <- & _). exists a. replace (S (length a)) with (length a + 1)%nat by lia. now rewrite firstn_app_2.
Qed.
Lemma step_cases t : t <> [] ->
  (exists e, header_step t = Err e) \/
  (exists n k v, (0 < n)%nat /\ header_step t = Ok (k, v, skipn n t) /\
     ((exists u c, firstn n t = u ++ [c] /\ (c = ch_nl \/ c = "}"%char)) \/ ~ In ch_nl t)) \/
  (unclosed_entry t /\ exists k v, header_step t = Ok (k, v, t)).
Proof.
  intros Hne. unfold header_step. destruct (is_bracket_entry t) eqn:EB.
  - unfold is_bracket_entry in EB. destruct (find_z "{"%char t =? -1) eqn:E1; [discriminate|].
    destruct (find_z "{"%char t <? find_z ch_nl t) eqn:E2; [|discriminate]. apply Z.ltb_lt in E2.
    unfold find_z in E1, E2. destruct (find_char "{"%char t) as [kb|] eqn:FB; [|discriminate]. destruct (find_char ch_nl t) as [kn|] eqn:FN; [|lia].
    unfold split_once. destruct (find_char "}"%char t) as [kr|] eqn:FR.
    + unfold find_z. rewrite FR. destruct (find_char "="%char (py_slice t 0 (Z.of_nat kr))); cbn [bind]; [right; left|left; eauto].
      exists (S kr). do 2 eexists. split; [lia|]. split.
      * cbn [fst snd]. f_equal. f_equal. replace (Z.of_nat kr + 1) with (Z.of_nat (S kr)) by lia. apply slice_from_skipn.
      * left. destruct (firstn_upto _ _ _ FR) as [u Hu]. exists u, "}"%char. auto.
    + rewrite (find_z_notin "}"%char t) by (apply find_char_None; exact FR). rewrite removelast_slice.
      destruct (find_char "="%char (removelast t)) as [ke|] eqn:FE; cbn [bind]; [right; right|left; eauto]. split.
      * apply find_char_Some in FB as (k & rest & Et & Lk & _). apply find_char_Some in FN as (a & b & Et2 & La & Na). exists k, rest. split; [exact Et|].
        assert (LT : (length k < length a)%nat) by lia. assert (DK : exists a', a = k ++ "{"%char :: a').
        { rewrite Et in Et2. clear - Et2 LT. revert a Et2 LT. induction k as [|x k IH]; intros [|y a] E L; cbn in *; try lia; injection E as -> E.
          - now exists a.
          - destruct (IH a E) as [a' ->]; [lia|]. now exists a'. }
        destruct DK as [a' DK]. split; [intros H; apply Na; rewrite DK; apply in_or_app; now left|]. split; [now apply find_char_None|]. split.
        -- rewrite Et, DK in Et2. rewrite <- app_assoc in Et2. apply app_inv_head in Et2. cbn in Et2. injection Et2 as ->. apply in_or_app. right. now left.
        -- destruct (in_dec Ascii.ascii_dec "="%char (removelast t)) as [Y|N]; [exact Y|]. apply find_char_None in N. congruence.
      * do 2 eexists. cbn [fst snd]. f_equal. f_equal. exact (slice_from_skipn t 0).
  - destruct (is_equals_entry t) eqn:EE.
    + unfold is_equals_entry in EE. unfold split_two.
      destruct (find_z "="%char t =? -1) eqn:E1; [discriminate|].
      destruct ((find_z "{"%char t <? find_z ch_nl t) && negb (find_z "{"%char t =? -1)); [discriminate|].
      destruct (find_z "="%char t <? find_z ch_nl t) eqn:E4; [|discriminate].
      unfold find_z in E1, E4 |- *.
      destruct (find_char ch_nl t) as [kn|] eqn:FN; [|destruct (find_char "="%char t); lia].
      destruct (split_char "="%char (py_slice t 0 (Z.of_nat kn))) as [|x [|y [|z l]]]; cbn [bind]; try (left; eauto; fail). right. left.
      exists (S kn). do 2 eexists. split; [lia|]. split; [cbn [fst snd]; f_equal; f_equal; replace (Z.of_nat kn + 1) with (Z.of_nat (S kn)) by lia; apply slice_from_skipn|].
      left. destruct (firstn_upto _ _ _ FN) as [u Hu]. exists u, ch_nl. auto.
    + right. left. destruct (entry_has_newline t) eqn:EN.
      * unfold entry_has_newline, find_z in *. destruct (find_char ch_nl t) as [kn|] eqn:FN; [|discriminate].
        exists (S kn). do 2 eexists. split; [lia|]. split; [f_equal; f_equal; replace (Z.of_nat kn + 1) with (Z.of_nat (S kn)) by lia; apply slice_from_skipn|].
        left. destruct (firstn_upto _ _ _ FN) as [u Hu]. exists u, ch_nl. auto.
      * exists 1%nat. do 2 eexists. split; [lia|]. split; [f_equal; f_equal; exact (slice_from_skipn t 1)|]. right.
        unfold entry_has_newline, find_z in EN. destruct (find_char ch_nl t) eqn:FN; [|now apply find_char_None]. destruct (Z.eqb_spec (Z.of_nat n) (-1)); [lia|discriminate].
Qed.
Lemma loop_unclosed t : t <> [] -> (exists k v, header_step t = Ok (k, v, t)) -> forall fuel d, header_loop fuel t d = Diverges.
Proof.
  intros Hne (k & v & Hs). induction fuel as [|f IH]; intros d; [destruct t; [congruence|reflexivity]|]. rewrite (loop_step f _ d _ _ _ Hne Hs). apply IH.
Qed.
Lemma loop_diverges fuel : forall t d, (length t <= fuel)%nat -> header_loop fuel t d = Diverges ->
  (exists a s, t = a ++ s /\ unclosed_entry s /\ (a = [] \/ exists u c, a = u ++ [c] /\ (c = ch_nl \/ c = "}"%char))) /\
  forall fuel', header_loop fuel' t d = Diverges.
Proof.
  induction fuel as [|f IH]; intros t d L H; [destruct t; [discriminate|cbn in L; lia]|]. destruct t as [|x t]; [discriminate|].
  assert (Hne : x :: t <> []) by discriminate. remember (x :: t) as s eqn:Es.
  destruct (step_cases s Hne) as [[e E]|[(n & k & v & Hn & E & HC)|[U E]]].
  - rewrite Es in *. cbn [header_loop] in H. rewrite E in H. discriminate.
  - rewrite (loop_step f _ d _ _ _ Hne E) in H. apply IH in H as [(a & r & Er & U & HA) HD].
    2:{ rewrite skipn_length. rewrite Es in *. cbn [length] in *. lia. }
    split.
    + destruct HC as [(u & c & Eu & Hc)|NN].
      * exists (firstn n s ++ a), r. split; [rewrite <- app_assoc, <- Er; symmetry; apply firstn_skipn|]. split; [exact U|]. right.
        destruct HA as [->|(u' & c' & -> & Hc')]; [exists u, c; rewrite app_nil_r; auto|]. exists (firstn n s ++ u'), c'. rewrite app_assoc. auto.
      * exfalso. apply NN. destruct U as (k' & rest & -> & _ & _ & Hnl & _). rewrite <- (firstn_skipn n s), Er, !in_app_iff. right. right. right. now right.
    + intros [|f']; [rewrite Es; reflexivity|]. rewrite (loop_step f' _ d _ _ _ Hne E). apply HD.
  - split; [|intros f'; now apply loop_unclosed]. exists [], s. split; [reflexivity|]. split; [exact U|now left].
Qed.
Lemma unclosed_step t : unclosed_entry t -> exists k v, header_step t = Ok (k, v, t).
Proof.
  intros (k & rest & Et & NK & NR & HN & HE). assert (Hne : t <> []) by (rewrite Et; destruct k; discriminate).
  assert (Hr : find_z "}"%char t = -1) by now apply find_z_notin.
  assert (B : is_bracket_entry t = true).
  { unfold is_bracket_entry, find_z. destruct (find_char "{"%char t) as [kb|] eqn:FB.
    2:{ apply find_char_None in FB. exfalso. apply FB. rewrite Et. apply in_or_app. right. now left. }
    destruct (find_char ch_nl t) as [kn|] eqn:FN.
    2:{ apply find_char_None in FN. exfalso. apply FN. rewrite Et. apply in_or_app. right. now right. }
    replace (Z.of_nat kb =? -1) with false by lia. replace (Z.of_nat kb <? Z.of_nat kn) with true; [reflexivity|]. symmetry. apply Z.ltb_lt.
    assert (L1 : (kb <= length k)%nat).
    { destruct (Nat.le_gt_cases kb (length k)) as [Q|Q]; [exact Q|]. exfalso. apply firstn_find in FB. apply FB. rewrite Et, firstn_app. apply in_or_app. right.
      destruct (kb - length k)%nat eqn:Z; [lia|now left]. }
    rewrite Et in FN. rewrite find_char_app_notin in FN by exact NK. cbn [find_char] in FN. change (Ascii.eqb "{"%char ch_nl) with false in FN. cbv iota in FN.
    destruct (find_char ch_nl rest); [injection FN as <-; lia|discriminate]. }
  unfold header_step. rewrite B, Hr, removelast_slice. unfold split_once.
  destruct (find_char "="%char (removelast t)) as [n|] eqn:E; [|apply find_char_None in E; contradiction].
  cbn [bind fst snd]. do 2 eexists. f_equal. f_equal. exact (slice_from_skipn t 0).
Qed.
Lemma read_diverges_only {F} (pf : text -> option F) fuel t : ~ In ch_cr t -> (length t <= fuel)%nat ->
  read_envi_header F pf fuel t = Diverges ->
  (exists a s, t = a ++ s /\ unclosed_entry s /\ (a = [] \/ exists u c, a = u ++ [c] /\ (c = ch_nl \/ c = "}"%char))) /\
  forall fuel', read_envi_header F pf fuel' t = Diverges.
Proof.
  intros NC L H. unfold read_envi_header in *. rewrite cleanup_id in H by exact NC.
  destruct (header_loop fuel t []) as [d|e|] eqn:E; cbn [bind] in H; [|discriminate|].
  - exfalso. revert H. apply mapM_not_div. apply convert_not_div.
  - apply loop_diverges in E as [E1 E2]; [|exact L]. split; [exact E1|]. intros f. rewrite cleanup_id by exact NC. now rewrite E2.
Qed.
Lemma read_unclosed {F} (pf : text -> option F) fuel t : ~ In ch_cr t -> unclosed_entry t -> read_envi_header F pf fuel t = Diverges.
Proof.
  intros NC U. unfold read_envi_header. rewrite cleanup_id by exact NC. rewrite loop_unclosed; [reflexivity| |now apply unclosed_step].
  destruct U as (k & r & -> & _). destruct k; discriminate.
Qed.

Lemma read_header_diverges {F} (pf : text -> option F) es s fuel :
  Forall clean_entry es -> NoDup (map entry_key es) -> ~ In ch_cr s -> unclosed_entry s ->
  read_envi_header F pf fuel (write_envi_header (map entry_item es) ++ s) = Diverges.
Proof.
  intros HF HN NC U.
  unfold read_envi_header. rewrite write_header_lines.
  rewrite cleanup_id.
  2:{ rewrite !in_app_iff. intros [[H|[H|H]]|H]; try contradiction; try discriminate.
      - simpl in H. repeat (destruct H as [H|H]; [discriminate|]). destruct H.
      - apply in_flat_map in H. destruct H as (e & He & Hc). rewrite Forall_forall in HF.
        apply (entry_line_no_cr e (HF e He)). exact Hc. }
  rewrite <- app_assoc. cbn [app].
  assert (Sne : s <> []) by (destruct U as (k & r & -> & _); destruct k; discriminate).
  assert (D : forall f, (S (length (flat_map entry_line es)) <= f)%nat ->
     header_loop f (txt "ENVI" ++ ch_nl :: flat_map entry_line es ++ s) [] = Diverges).
  { intros f Hf. destruct f as [|f]; [lia|].
    rewrite (loop_step f _ _ [] [] (flat_map entry_line es ++ s)); [|discriminate|].
    2:{ apply step_skip_line; simpl; intros H;
        repeat (destruct H as [H|H]; [discriminate|]); destruct H. }
    change (store_entry [] [] []) with (blank :: @nil (text * text)).
    destruct (loop_after_entries es f s HF [] HN) as (f' & E); [lia|].
    rewrite E. apply loop_unclosed; [exact Sne|now apply unclosed_step]. }
  match goal with |- bind (header_loop ?a ?b ?c) _ = _ =>
    assert (E : header_loop a b c = Diverges) end.
  { match goal with |- ?x = _ => destruct x eqn:E end; auto; exfalso.
    - pose proof (loop_fuel _ (fuel + S (length (flat_map entry_line es))) _ _ _ E) as H.
      specialize (H ltac:(discriminate) ltac:(lia)). rewrite D in H by lia. discriminate.
    - pose proof (loop_fuel _ (fuel + S (length (flat_map entry_line es))) _ _ _ E) as H.
      specialize (H ltac:(discriminate) ltac:(lia)). rewrite D in H by lia. discriminate. }
  rewrite E. reflexivity.
Qed.
