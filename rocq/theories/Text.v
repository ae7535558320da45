(** Prelude: Python str as a list of characters (code points 0..255; the code
    points above are not modelled), with the str methods the models use. *)
From Coq Require Export Ascii String.
From Coq Require Import Decimal DecimalString DecimalZ DecimalFacts.
From Verif Require Export Py.
Open Scope Z_scope.
Open Scope list_scope.

Definition text := list ascii.
Definition txt (s : string) : text := list_ascii_of_string s.

Definition ch_nl : ascii := ascii_of_nat 10.
Definition ch_cr : ascii := ascii_of_nat 13.

(** The characters of code 0..255 that str.strip() removes
    (TAB, LF, VT, FF, CR, FS..US, space, NEL, NBSP). *)
Definition is_space (c : ascii) : bool :=
  let n := nat_of_ascii c in
  ((Nat.leb 9 n && Nat.leb n 13) || (Nat.leb 28 n && Nat.leb n 32)
   || Nat.eqb n 133 || Nat.eqb n 160)%bool.

(** str.lstrip / str.rstrip / str.strip without argument *)
Fixpoint lstrip (t : text) : text :=
  match t with
  | c :: r => if is_space c then lstrip r else t
  | [] => []
  end.
Definition rstrip (t : text) : text := rev (lstrip (rev t)).
Definition strip (t : text) : text := rstrip (lstrip t).

(** str.find of one character: None stands for Python's -1 *)
Fixpoint find_char (c : ascii) (t : text) : option nat :=
  match t with
  | [] => None
  | x :: r => if Ascii.eqb x c then Some O
              else match find_char c r with Some k => Some (S k) | None => None end
  end.

Definition find_z (c : ascii) (t : text) : Z :=
  match find_char c t with Some k => Z.of_nat k | None => -1 end.

(** str.replace(pat, rep) for a non-empty pattern: leftmost, not overlapping.
    skip counts the characters of a match still to be dropped. *)
Fixpoint is_prefix (p t : text) : bool :=
  match p, t with
  | [], _ => true
  | a :: p', b :: t' => Ascii.eqb a b && is_prefix p' t'
  | _ :: _, [] => false
  end.

Fixpoint replace_from (skip : nat) (pat rep t : text) : text :=
  match t with
  | [] => []
  | c :: r =>
    match skip with
    | S k => replace_from k pat rep r
    | O => if is_prefix pat t
           then rep ++ replace_from (length pat - 1) pat rep r
           else c :: replace_from O pat rep r
    end
  end.
Definition str_replace (pat rep t : text) : text := replace_from O pat rep t.

(** str.split(sep) for a one-character separator: never empty *)
Fixpoint split_char (c : ascii) (t : text) : list text :=
  match t with
  | [] => [[]]
  | x :: r =>
    if Ascii.eqb x c then [] :: split_char c r
    else match split_char c r with
         | s :: ss => (x :: s) :: ss
         | [] => [[x]]
         end
  end.

(** sep.join(list) for a given separator *)
Fixpoint join (sep : text) (l : list text) : text :=
  match l with
  | [] => []
  | [x] => x
  | x :: r => x ++ sep ++ join sep r
  end.

(** str.lower; characters above 127 are left alone (only compared with ASCII) *)
Definition lower_char (c : ascii) : ascii :=
  let n := nat_of_ascii c in
  if (Nat.leb 65 n && Nat.leb n 90)%bool then ascii_of_nat (n + 32) else c.
Definition lower (t : text) : text := map lower_char t.

Definition text_eqb (a b : text) : bool :=
  if list_eq_dec ascii_dec a b then true else false.

Definition starts_with (p t : text) : bool := is_prefix p t.

(** str(int) *)
Definition str_of_Z (z : Z) : text := txt (NilZero.string_of_int (Z.to_int z)).

(** int(str): surrounding blanks, an optional sign, decimal digits.
    Simplified: the underscores that Python allows between digits are rejected. *)
Definition py_int (t : text) : result Z :=
  let s := strip t in
  let body := match s with
              | c :: r => if Ascii.eqb c "+"%char
                          then match r with
                               | d :: _ => if Ascii.eqb d "-"%char then [] else r
                               | [] => []
                               end
                          else s
              | [] => []
              end in
  match NilZero.int_of_string (string_of_list_ascii body) with
  | Some d => Ok (Z.of_int d)
  | None => Err ValueError
  end.

(* ------------------------------------------------------------------ *)
(** Lemmas *)

Lemma text_eqb_spec a b : text_eqb a b = true <-> a = b.
Proof. unfold text_eqb. destruct (list_eq_dec ascii_dec a b); split; congruence. Qed.

Lemma text_eqb_refl a : text_eqb a a = true.
Proof. apply text_eqb_spec; reflexivity. Qed.

Lemma text_eqb_neq a b : a <> b -> text_eqb a b = false.
Proof. intros H. destruct (text_eqb a b) eqn:E; auto. apply text_eqb_spec in E. contradiction. Qed.

Lemma find_char_None c t : find_char c t = None <-> ~ In c t.
Proof.
  induction t as [|x t IH]; simpl.
  - split; auto.
  - destruct (Ascii.eqb_spec x c) as [->|Hx].
    + split; [discriminate|]. intros H; exfalso; apply H; left; reflexivity.
    + destruct (find_char c t) eqn:E.
      * split; [discriminate|]. intros H. exfalso. apply H. right.
        destruct (in_dec ascii_dec c t) as [Hi|Hi]; auto.
        apply IH in Hi. discriminate.
      * split; auto. intros _ [H|H]; [congruence|]. apply IH in H; auto.
Qed.

Lemma find_char_app_notin c a b :
  ~ In c a -> find_char c (a ++ b) =
              match find_char c b with Some k => Some (length a + k)%nat | None => None end.
Proof.
  induction a as [|x a IH]; simpl; intros H.
  - destruct (find_char c b); reflexivity.
  - destruct (Ascii.eqb_spec x c) as [->|Hx].
    + exfalso; apply H; left; reflexivity.
    + rewrite IH by (intros H2; apply H; right; exact H2).
      destruct (find_char c b); reflexivity.
Qed.

Lemma find_char_here c a b : ~ In c a -> find_char c (a ++ c :: b) = Some (length a).
Proof.
  intros H. rewrite find_char_app_notin by exact H. simpl.
  rewrite Ascii.eqb_refl. rewrite Nat.add_0_r. reflexivity.
Qed.

Lemma find_char_Some c t k :
  find_char c t = Some k ->
  exists a b, t = a ++ c :: b /\ length a = k /\ ~ In c a.
Proof.
  revert k; induction t as [|x t IH]; simpl; intros k H; [discriminate|].
  destruct (Ascii.eqb_spec x c) as [->|Hx].
  - injection H as <-. exists [], t. repeat split; auto.
  - destruct (find_char c t) as [j|] eqn:E; [|discriminate].
    injection H as <-. destruct (IH j eq_refl) as (a & b & -> & <- & Hn).
    exists (x :: a), b. repeat split; auto.
    intros [H|H]; [congruence|contradiction].
Qed.

Lemma find_char_lt c t k : find_char c t = Some k -> (k < length t)%nat.
Proof.
  intros H. apply find_char_Some in H. destruct H as (a & b & -> & <- & _).
  rewrite app_length. simpl. lia.
Qed.

Lemma split_char_nonempty c t : split_char c t <> [].
Proof.
  induction t as [|x t IH]; simpl; [discriminate|].
  destruct (Ascii.eqb x c); [discriminate|].
  destruct (split_char c t); [contradiction|discriminate].
Qed.

Lemma split_char_notin c t : ~ In c t -> split_char c t = [t].
Proof.
  induction t as [|x t IH]; simpl; intros H; auto.
  destruct (Ascii.eqb_spec x c) as [->|Hx]; [exfalso; apply H; left; reflexivity|].
  rewrite IH by (intros H2; apply H; right; exact H2). reflexivity.
Qed.

Lemma split_char_app c a b : ~ In c a -> split_char c (a ++ c :: b) = a :: split_char c b.
Proof.
  induction a as [|x a IH]; simpl; intros H.
  - rewrite Ascii.eqb_refl. reflexivity.
  - destruct (Ascii.eqb_spec x c) as [->|Hx]; [exfalso; apply H; left; reflexivity|].
    rewrite IH by (intros H2; apply H; right; exact H2). reflexivity.
Qed.

Lemma split_char_length c t : length (split_char c t) = S (count_occ ascii_dec t c).
Proof.
  induction t as [|x t IH]; simpl; auto.
  destruct (Ascii.eqb_spec x c) as [->|Hx]; destruct (ascii_dec _ c) as [E|E]; try congruence.
  - simpl. rewrite IH. reflexivity.
  - pose proof (split_char_nonempty c t).
    destruct (split_char c t) eqn:E2; simpl in *; [contradiction|auto].
Qed.

Lemma split_join c l :
  l <> [] -> Forall (fun x => ~ In c x) l -> split_char c (join [c] l) = l.
Proof.
  induction l as [|x l IH]; intros Hne HF; [congruence|].
  inversion HF as [|? ? Hx HF']; subst.
  destruct l as [|y l].
  - simpl. apply split_char_notin; exact Hx.
  - change (join [c] (x :: y :: l)) with (x ++ [c] ++ join [c] (y :: l)).
    change ([c] ++ join [c] (y :: l)) with (c :: join [c] (y :: l)).
    rewrite split_char_app by exact Hx. f_equal. apply IH; [discriminate|exact HF'].
Qed.

Lemma join_split c t : join [c] (split_char c t) = t.
Proof.
  induction t as [|x t IH]; simpl; auto.
  pose proof (split_char_nonempty c t) as Hne.
  destruct (Ascii.eqb_spec x c) as [->|Hx].
  - destruct (split_char c t) as [|s ss]; [contradiction|].
    simpl in *. rewrite IH. reflexivity.
  - destruct (split_char c t) as [|s ss]; [contradiction|].
    destruct ss; simpl in *; rewrite IH; reflexivity.
Qed.

(** strip *)
Definition stripped (t : text) : Prop := strip t = t.

Lemma lstrip_app_space a b : Forall (fun c => is_space c = true) a -> lstrip (a ++ b) = lstrip b.
Proof. induction 1 as [|c a Hc _ IH]; simpl; auto. rewrite Hc. exact IH. Qed.

Lemma lstrip_suffix t : exists a, t = a ++ lstrip t /\ Forall (fun c => is_space c = true) a.
Proof.
  induction t as [|c t IH]; simpl.
  - exists []; auto.
  - destruct (is_space c) eqn:E.
    + destruct IH as (a & Ha & HF). exists (c :: a). split; [simpl; congruence|auto].
    + exists []. auto.
Qed.

Lemma lstrip_id t : (match t with c :: _ => is_space c = false | [] => True end) -> lstrip t = t.
Proof. destruct t as [|c t]; simpl; auto. intros ->. reflexivity. Qed.

Lemma lstrip_head t : match lstrip t with c :: _ => is_space c = false | [] => True end.
Proof. induction t as [|c t IH]; simpl; auto. destruct (is_space c) eqn:E; auto. Qed.

Lemma lstrip_idem t : lstrip (lstrip t) = lstrip t.
Proof. apply lstrip_id, lstrip_head. Qed.

Lemma rstrip_idem t : rstrip (rstrip t) = rstrip t.
Proof. unfold rstrip. rewrite rev_involutive, lstrip_idem. reflexivity. Qed.

Lemma rstrip_prefix t : exists b, t = rstrip t ++ b /\ Forall (fun c => is_space c = true) b.
Proof.
  destruct (lstrip_suffix (rev t)) as (a & Ha & HF).
  exists (rev a). split.
  - unfold rstrip. rewrite <- rev_app_distr, <- Ha, rev_involutive. reflexivity.
  - apply Forall_rev. exact HF.
Qed.

Lemma rstrip_app_space a b : Forall (fun c => is_space c = true) b -> rstrip (a ++ b) = rstrip a.
Proof.
  intros H. unfold rstrip. rewrite rev_app_distr, lstrip_app_space; auto.
  apply Forall_rev; exact H.
Qed.

Lemma lstrip_rstrip_head t :
  (match t with c :: _ => is_space c = false | [] => True end) ->
  lstrip (rstrip t) = rstrip t.
Proof.
  intros H. apply lstrip_id. destruct (rstrip_prefix t) as (b & Hb & HF).
  destruct (rstrip t) as [|c r]; auto. rewrite Hb in H. simpl in H. exact H.
Qed.

Lemma strip_idem t : strip (strip t) = strip t.
Proof.
  unfold strip. rewrite (lstrip_rstrip_head (lstrip t)) by apply lstrip_head.
  apply rstrip_idem.
Qed.

Lemma stripped_lstrip t : stripped t -> lstrip t = t.
Proof.
  unfold stripped, strip. intros H. rewrite <- H.
  apply lstrip_rstrip_head, lstrip_head.
Qed.

Lemma stripped_rstrip t : stripped t -> rstrip t = t.
Proof. unfold stripped, strip. intros H. rewrite <- H. apply rstrip_idem. Qed.

Lemma strip_pad a t b :
  Forall (fun c => is_space c = true) a -> Forall (fun c => is_space c = true) b ->
  stripped t -> strip (a ++ t ++ b) = t.
Proof.
  intros Ha Hb Ht. unfold strip. rewrite lstrip_app_space by exact Ha.
  destruct t as [|c t].
  - simpl. assert (E : lstrip b = []).
    { replace b with (b ++ []) by apply app_nil_r.
      rewrite lstrip_app_space by exact Hb. reflexivity. }
    rewrite E. reflexivity.
  - assert (Hc : is_space c = false).
    { pose proof (stripped_lstrip _ Ht) as E. pose proof (lstrip_head (c :: t)) as Hh.
      rewrite E in Hh. exact Hh. }
    rewrite lstrip_id by (simpl; exact Hc).
    rewrite rstrip_app_space by exact Hb. apply stripped_rstrip; exact Ht.
Qed.

Lemma lstrip_In c t : In c (lstrip t) -> In c t.
Proof.
  destruct (lstrip_suffix t) as (a & E & _). intros H. rewrite E. apply in_or_app. right; exact H.
Qed.

Lemma strip_In c t : In c (strip t) -> In c t.
Proof.
  unfold strip. intros H. destruct (rstrip_prefix (lstrip t)) as (b & E & _).
  apply lstrip_In. rewrite E. apply in_or_app. left; exact H.
Qed.

(** replace *)
Lemma is_prefix_single c t : is_prefix [c] t = match t with x :: _ => Ascii.eqb c x | [] => false end.
Proof. destruct t; simpl; auto. apply andb_true_r. Qed.

Lemma replace_single c rep t :
  str_replace [c] rep t = flat_map (fun x => if Ascii.eqb x c then rep else [x]) t.
Proof.
  unfold str_replace. induction t as [|x t IH]; auto.
  cbn [replace_from flat_map]. rewrite is_prefix_single, Ascii.eqb_sym.
  destruct (Ascii.eqb x c); simpl; rewrite IH; reflexivity.
Qed.

Lemma replace_single_notin c rep t : ~ In c t -> str_replace [c] rep t = t.
Proof.
  rewrite replace_single. induction t as [|x t IH]; simpl; intros H; auto.
  destruct (Ascii.eqb_spec x c) as [->|Hx]; [exfalso; auto|].
  simpl. f_equal. apply IH. auto.
Qed.

Lemma replace_single_del c t :
  str_replace [c] [] t = filter (fun x => negb (Ascii.eqb x c)) t.
Proof.
  rewrite replace_single. induction t as [|x t IH]; simpl; auto.
  destruct (Ascii.eqb x c); simpl; rewrite IH; reflexivity.
Qed.

Lemma replace_single_self c t : str_replace [c] [c] t = t.
Proof.
  rewrite replace_single. induction t as [|x t IH]; simpl; auto.
  destruct (Ascii.eqb_spec x c) as [->|Hx]; simpl; f_equal; exact IH.
Qed.

(** integers *)
Definition is_digit (c : ascii) : bool :=
  let n := nat_of_ascii c in (Nat.leb 48 n && Nat.leb n 57)%bool.

Lemma string_of_uint_digits d :
  Forall (fun c => is_digit c = true) (txt (NilEmpty.string_of_uint d)).
Proof. induction d; simpl; constructor; auto. Qed.

Lemma nz_uint_digits d :
  Forall (fun c => is_digit c = true) (txt (NilZero.string_of_uint d)).
Proof.
  destruct d; try (apply (string_of_uint_digits)).
  repeat constructor.
Qed.

Lemma nz_uint_nonempty d : txt (NilZero.string_of_uint d) <> [].
Proof. destruct d; simpl; discriminate. Qed.

Lemma str_of_Z_form z :
  exists s, s <> [] /\ Forall (fun c => is_digit c = true) s /\            (str_of_Z z = s \/ str_of_Z z = "-"%char :: s).
Proof.
  unfold str_of_Z. destruct (Z.to_int z) as [d|d];
    exists (txt (NilZero.string_of_uint d));
    (split; [apply nz_uint_nonempty|split; [apply nz_uint_digits|]]).
  - left; reflexivity.
  - right; reflexivity.
Qed.

Lemma str_of_Z_chars z c :
  In c (str_of_Z z) -> is_digit c = true \/ c = "-"%char.
Proof.
  destruct (str_of_Z_form z) as (s & _ & HF & [Es|Es]); rewrite Es.
  - rewrite Forall_forall in HF. auto.
  - rewrite Forall_forall in HF. intros [H|H]; auto.
Qed.

Lemma nospace_stripped t : Forall (fun c => is_space c = false) t -> stripped t.
Proof.
  intros H. unfold stripped, strip. rewrite lstrip_id.
  - unfold rstrip. rewrite lstrip_id; [apply rev_involutive|].
    apply Forall_rev in H. destruct (rev t); auto. inversion H; auto.
  - destruct t; auto. inversion H; auto.
Qed.

Lemma digit_not_space c : is_digit c = true -> is_space c = false.
Proof. destruct c as [[] [] [] [] [] [] [] []]; vm_compute; congruence. Qed.

Lemma str_of_Z_stripped z : stripped (str_of_Z z).
Proof.
  apply nospace_stripped. apply Forall_forall. intros c H.
  apply str_of_Z_chars in H. destruct H as [H| ->]; [apply digit_not_space; exact H|reflexivity].
Qed.

Lemma str_of_Z_notin z c : is_digit c = false -> c <> "-"%char -> ~ In c (str_of_Z z).
Proof. intros H1 H2 H. apply str_of_Z_chars in H. destruct H; congruence. Qed.

Lemma list_ascii_txt s : string_of_list_ascii (txt s) = s.
Proof. unfold txt. apply string_of_list_ascii_of_string. Qed.

Lemma to_int_nonnil z : Z.to_int z <> Pos Nil /\ Z.to_int z <> Neg Nil.
Proof.
  destruct z as [|p|p]; simpl; split; try discriminate; intros H; injection H as H;
    apply (DecimalPos.Unsigned.to_uint_nonnil p); exact H.
Qed.

Lemma py_int_str z : py_int (str_of_Z z) = Ok z.
Proof.
  unfold py_int. rewrite str_of_Z_stripped.
  assert (Hb : forall c r, str_of_Z z = c :: r -> Ascii.eqb c "+"%char = false).
  { intros c r E. apply Ascii.eqb_neq. intros ->.
    apply (str_of_Z_notin z "+"%char); [reflexivity|discriminate|].
    rewrite E. left; reflexivity. }
  assert (Hs : NilZero.int_of_string (string_of_list_ascii (str_of_Z z)) = Some (Z.to_int z)).
  { unfold str_of_Z. rewrite list_ascii_txt.
    destruct (to_int_nonnil z) as [H1 H2]. apply NilZero.isi; assumption. }
  destruct (str_of_Z z) as [|c r] eqn:E.
  - destruct (str_of_Z_form z) as (s & Hne & _ & [Es|Es]); congruence.
  - rewrite (Hb c r eq_refl). rewrite Hs. f_equal. apply DecimalZ.of_to.
Qed.

Lemma str_of_Z_inj a b : str_of_Z a = str_of_Z b -> a = b.
Proof.
  intros H. pose proof (py_int_str a) as Ha. pose proof (py_int_str b) as Hb.
  rewrite H in Ha. congruence.
Qed.
