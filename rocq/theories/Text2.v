(** Prelude: more of Python's str and text files.  Nothing in this file models a
    line of /repo by itself. *)
From Coq Require Import Lia.
From Verif Require Export Text.
Open Scope Z_scope.
Open Scope list_scope.

(** open(fname) in text mode translates CR LF and CR to LF while reading. *)
Fixpoint universal_newlines (t : text) : text :=
  match t with
  | [] => []
  | c :: r =>
    if Ascii.eqb c ch_cr then
      match r with
      | d :: r' => if Ascii.eqb d ch_nl then ch_nl :: universal_newlines r'
                   else ch_nl :: universal_newlines r
      | [] => [ch_nl]
      end
    else c :: universal_newlines r
  end.

(** f.readlines() / iteration over f on translated text: every line keeps its
    LF; an unterminated last line is a line unless it is empty. *)
Fixpoint readlines (t : text) : list text :=
  match t with
  | [] => []
  | c :: r =>
    if Ascii.eqb c ch_nl then [c] :: readlines r
    else match readlines r with
         | l :: ls => (c :: l) :: ls
         | [] => [[c]]
         end
  end.

(** What f.readlines() yields for a file with the given content. *)
Definition file_lines (content : text) : list text := readlines (universal_newlines content).

(** str.split() without argument *)
Fixpoint split_ws (t : text) : list text :=
  match t with
  | [] => []
  | c :: r =>
    if is_space c then split_ws r
    else match r with
         | [] => [[c]]
         | d :: _ => if is_space d then [c] :: split_ws r
                     else match split_ws r with
                          | s :: ss => (c :: s) :: ss
                          | [] => [[c]]
                          end
         end
  end.

(** pat in text *)
Fixpoint contains (pat t : text) : bool :=
  is_prefix pat t || match t with [] => false | _ :: r => contains pat r end.

(** text.rfind(c) *)
Fixpoint rfind (c : ascii) (t : text) : Z :=
  match t with
  | [] => -1
  | x :: r => let k := rfind c r in
              if 0 <=? k then k + 1 else if Ascii.eqb x c then 0 else -1
  end.

Definition ends_with (suf t : text) : bool := is_prefix (rev suf) (rev t).

Definition is_upper (c : ascii) : bool :=
  let n := nat_of_ascii c in (Nat.leb 65 n && Nat.leb n 90)%bool.
Definition is_lower (c : ascii) : bool :=
  let n := nat_of_ascii c in (Nat.leb 97 n && Nat.leb n 122)%bool.

(* ------------------------------------------------------------------ *)
(** Lemmas *)

Lemma universal_no_cr t : ~ In ch_cr (universal_newlines t).
Proof.
  enough (H : forall n t, (length t <= n)%nat -> ~ In ch_cr (universal_newlines t)).
  { apply (H (length t)); lia. }
  induction n as [|n IH]; intros [|c r] Hn; simpl in *; auto; try lia.
  destruct (Ascii.eqb_spec c ch_cr) as [->|Hc].
  - destruct r as [|d r'].
    + intros [H|[]]; discriminate.
    + simpl in Hn. destruct (Ascii.eqb d ch_nl).
      * intros [H|H]; [discriminate|]. apply (IH r'); [lia|exact H].
      * intros [H|H]; [discriminate|]. apply (IH (d :: r')); [simpl; lia|exact H].
  - intros [H|H]; [congruence|]. apply (IH r); [lia|exact H].
Qed.

Lemma universal_id t : ~ In ch_cr t -> universal_newlines t = t.
Proof.
  induction t as [|c r IH]; simpl; intros H; auto.
  destruct (Ascii.eqb_spec c ch_cr) as [->|Hc]; [exfalso; auto|].
  f_equal. apply IH. auto.
Qed.

Lemma universal_step_other c r : c <> ch_cr -> universal_newlines (c :: r) = c :: universal_newlines r.
Proof. intros H. simpl. destruct (Ascii.eqb_spec c ch_cr); [contradiction|reflexivity]. Qed.

Lemma universal_app_clean a b : ~ In ch_cr a -> universal_newlines (a ++ b) = a ++ universal_newlines b.
Proof.
  induction a as [|c a IH]; intros H; [reflexivity|].
  rewrite <- app_comm_cons, universal_step_other by (intros ->; apply H; left; reflexivity).
  rewrite IH by (intros H2; apply H; right; exact H2). reflexivity.
Qed.

Lemma universal_In c t : c <> ch_nl -> In c (universal_newlines t) -> In c t.
Proof.
  intros Hc. enough (H : forall n t, (length t <= n)%nat -> In c (universal_newlines t) -> In c t).
  { apply (H (length t)); lia. }
  clear t. induction n as [|n IH]; intros [|x r] Hn; simpl in *; auto; try lia.
  destruct (Ascii.eqb_spec x ch_cr) as [->|Hx].
  - destruct r as [|d r'].
    + intros [H|[]]; congruence.
    + simpl in Hn. destruct (Ascii.eqb d ch_nl).
      * intros [H|H]; [congruence|]. right; right. apply IH; [lia|exact H].
      * intros [H|H]; [congruence|]. right. apply IH; [simpl; lia|exact H].
  - intros [H|H]; [auto|]. right. apply IH; [lia|exact H].
Qed.

Lemma readlines_concat t : concat (readlines t) = t.
Proof.
  induction t as [|c r IH]; simpl; auto.
  destruct (Ascii.eqb c ch_nl).
  - simpl. rewrite IH. reflexivity.
  - destruct (readlines r) as [|l ls]; simpl in *; rewrite <- IH; reflexivity.
Qed.

Lemma readlines_line l rest : ~ In ch_nl l -> readlines (l ++ ch_nl :: rest) = (l ++ [ch_nl]) :: readlines rest.
Proof.
  induction l as [|c l IH]; intros H.
  - simpl. reflexivity.
  - simpl. destruct (Ascii.eqb_spec c ch_nl) as [->|Hc]; [exfalso; apply H; left; reflexivity|].
    rewrite IH by (intros H2; apply H; right; exact H2). reflexivity.
Qed.

Lemma readlines_last l : ~ In ch_nl l -> l <> [] -> readlines l = [l].
Proof.
  induction l as [|c l IH]; intros H Hne; [congruence|].
  simpl. destruct (Ascii.eqb_spec c ch_nl) as [->|Hc]; [exfalso; apply H; left; reflexivity|].
  destruct l as [|d l]; [reflexivity|].
  rewrite IH; [reflexivity|intros H2; apply H; right; exact H2|discriminate].
Qed.

Lemma readlines_lines ls rest : Forall (fun l => ~ In ch_nl l) ls ->
  readlines (concat (map (fun l => l ++ [ch_nl]) ls) ++ rest) = map (fun l => l ++ [ch_nl]) ls ++ readlines rest.
Proof.
  induction 1 as [|l ls Hl _ IH]; simpl; auto.
  rewrite <- !app_assoc. simpl. rewrite readlines_line by exact Hl. rewrite IH. reflexivity.
Qed.

Lemma split_ws_blank ws t : Forall (fun c => is_space c = true) ws -> split_ws (ws ++ t) = split_ws t.
Proof. induction 1 as [|c ws Hc _ IH]; simpl; auto. rewrite Hc. exact IH. Qed.

Lemma split_ws_word w t : w <> [] -> Forall (fun c => is_space c = false) w ->
  (match t with [] => True | c :: _ => is_space c = true end) ->
  split_ws (w ++ t) = w :: split_ws t.
Proof.
  intros Hne HF Ht. induction HF as [|c w Hc HF IH]; [congruence|].
  rewrite <- app_comm_cons.
  destruct w as [|d w].
  - simpl. rewrite Hc. destruct t as [|x t]; [reflexivity|]. rewrite Ht. reflexivity.
  - assert (E : split_ws (c :: (d :: w) ++ t) =
        match split_ws ((d :: w) ++ t) with s :: ss => (c :: s) :: ss | [] => [[c]] end).
    { simpl. rewrite Hc. inversion HF as [|? ? Hd _]; subst. rewrite Hd. reflexivity. }
    rewrite E, IH by discriminate. reflexivity.
Qed.

Lemma split_ws_spaces_only t : Forall (fun c => is_space c = true) t -> split_ws t = [].
Proof. induction 1 as [|c t Hc _ IH]; simpl; auto. rewrite Hc. exact IH. Qed.

Lemma split_ws_tokens t : Forall (fun w => w <> [] /\ Forall (fun c => is_space c = false) w) (split_ws t).
Proof.
  induction t as [|c r IH]; simpl; auto.
  destruct (is_space c) eqn:E; auto.
  destruct r as [|d r'].
  - constructor; auto. split; [discriminate|auto].
  - destruct (is_space d).
    + constructor; auto. split; [discriminate|auto].
    + destruct (split_ws (d :: r')) as [|s ss].
      * constructor; auto. split; [discriminate|auto].
      * inversion IH as [|? ? [H1 H2] H3]; subst. constructor; auto. split; [discriminate|auto].
Qed.

Lemma is_prefix_spec p t : is_prefix p t = true <-> exists r, t = p ++ r.
Proof.
  revert t; induction p as [|a p IH]; intros t; simpl.
  - split; eauto.
  - destruct t as [|b t].
    + split; [discriminate|]. intros (r & H); discriminate.
    + rewrite andb_true_iff, IH, Ascii.eqb_eq. split.
      * intros (-> & r & ->). exists r; reflexivity.
      * intros (r & H). injection H as -> ->. split; [reflexivity|eauto].
Qed.

Lemma contains_spec p t : contains p t = true <-> exists a b, t = a ++ p ++ b.
Proof.
  induction t as [|c t IH]; simpl.
  - rewrite orb_false_r, is_prefix_spec. split.
    + intros (r & H). exists [], r. exact H.
    + intros (a & b & H). destruct a; [|discriminate]. exists b. exact H.
  - rewrite orb_true_iff, is_prefix_spec, IH. split.
    + intros [(r & H)|(a & b & ->)].
      * exists [], r. exact H.
      * exists (c :: a), b. reflexivity.
    + intros (a & b & H). destruct a as [|x a].
      * left. exists b. exact H.
      * right. injection H as -> ->. eauto.
Qed.

Lemma ends_with_spec s t : ends_with s t = true <-> exists a, t = a ++ s.
Proof.
  unfold ends_with. rewrite is_prefix_spec. split.
  - intros (r & H). exists (rev r).
    rewrite <- (rev_involutive t), H, rev_app_distr, rev_involutive. reflexivity.
  - intros (a & ->). exists (rev a). apply rev_app_distr.
Qed.

Lemma rfind_notin c t : ~ In c t -> rfind c t = -1.
Proof.
  induction t as [|x t IH]; simpl; intros H; auto.
  rewrite IH by auto. simpl. destruct (Ascii.eqb_spec x c) as [->|]; [exfalso; auto|reflexivity].
Qed.

Lemma rfind_last c a b : ~ In c b -> rfind c (a ++ c :: b) = Z.of_nat (length a).
Proof.
  intros H. induction a as [|x a IH]; simpl.
  - rewrite rfind_notin by exact H. simpl. rewrite Ascii.eqb_refl. reflexivity.
  - rewrite IH. replace (0 <=? Z.of_nat (length a)) with true by (symmetry; apply Z.leb_le; lia). lia.
Qed.

Lemma lower_char_not_upper c : is_upper (lower_char c) = false.
Proof. destruct c as [[] [] [] [] [] [] [] []]; vm_compute; reflexivity. Qed.

Lemma lower_char_id c : is_upper c = false -> lower_char c = c.
Proof. unfold is_upper, lower_char. intros ->. reflexivity. Qed.

Lemma lower_not_upper_in c : is_lower c = true -> is_upper c = false.
Proof. destruct c as [[] [] [] [] [] [] [] []]; vm_compute; congruence. Qed.
