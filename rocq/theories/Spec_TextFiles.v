(** Specification vocabulary for the text helpers (C55-C58, C65, C66).  Nothing
    here mentions a definition of the model M_TextFiles. *)
From Verif Require Import Text2.
Open Scope list_scope.

(** A newline-free text *)
Definition is_newline (c : ascii) : bool := Ascii.eqb c ch_nl || Ascii.eqb c ch_cr.
Definition one_line (t : text) : Prop := Forall (fun c => is_newline c = false) t.

(** The content of a file that holds the given lines, each ended by LF *)
Definition lines_text (ls : list text) : text := concat (map (fun l => l ++ [ch_nl]) ls).

(** A capitalised word: one capital and at least one small letter *)
Definition cap_word (w : text) : Prop :=
  exists u ls, w = u :: ls /\ is_upper u = true /\ ls <> [] /\ Forall (fun c => is_lower c = true) ls.

(** line consists of the words toks separated by blanks, perhaps with blanks
    around them *)
Definition blanks (t : text) : Prop := Forall (fun c => is_space c = true) t.
Definition word (t : text) : Prop := t <> [] /\ Forall (fun c => is_space c = false) t.
Inductive fields_line : list text -> text -> Prop :=
| FL_nil ws : blanks ws -> fields_line [] ws
| FL_cons ws tok toks rest : blanks ws -> word tok -> fields_line toks rest ->
    (rest = [] \/ exists c r, rest = c :: r /\ is_space c = true) ->
    fields_line (tok :: toks) (ws ++ tok ++ rest).

(** A CSV table as text: every cell is written plainly or in double quotes, with
    the quotes of the cell doubled. *)
Inductive cell := Plain (t : text) | Quoted (t : text).
Definition cell_text (c : cell) : text := match c with Plain t => t | Quoted t => t end.
Definition dquote : ascii := ascii_of_nat 34.
Definition write_cell (c : cell) : text :=
  match c with
  | Plain t => t
  | Quoted t => dquote :: flat_map (fun x => if Ascii.eqb x dquote then [dquote; dquote] else [x]) t ++ [dquote]
  end.
Definition write_record (delim : ascii) (r : list cell) : text := join [delim] (map write_cell r) ++ [ch_nl].
Definition write_table (delim : ascii) (rs : list (list cell)) : text := concat (map (write_record delim) rs).

Definition good_cell (delim : ascii) (c : cell) : Prop :=
  match c with
  | Plain t => one_line t /\ ~ In delim t /\ (forall r, t <> dquote :: r)
  | Quoted t => ~ In ch_cr t
  end.
Definition good_record (delim : ascii) (r : list cell) : Prop :=
  r <> [] /\ r <> [Plain []] /\ Forall (good_cell delim) r.
Definition good_delim (delim : ascii) : Prop := is_newline delim = false /\ delim <> dquote.

Definition text_dec (x y : text) : {x = y} + {x <> y} := list_eq_dec ascii_dec x y.

(** A file name as the operating system gives it *)
Definition file_name (n : text) : Prop := n <> [] /\ ~ In "/"%char n.
(** The file lies two levels below the directory base: in a sub-directory of it.
    For base = "" the file is given as sub/name, relative to the current directory. *)
Definition two_below (base filename : text) : Prop :=
  exists sub name, file_name sub /\ file_name name /\
    ((base = [] /\ filename = sub ++ txt "/" ++ name) \/
     (base <> [] /\ (forall r, base <> r ++ txt "/") /\ filename = base ++ txt "/" ++ sub ++ txt "/" ++ name)).
(** A visible .txt file whose name, in small letters, contains one of the words *)
Definition txt_file_with (words : list text) (n : text) : Prop :=
  (forall r, n <> "."%char :: r) /\ (exists r, n = r ++ txt ".txt") /\
  exists w a b, In w words /\ lower n = a ++ w ++ b.
(** n is the first such name *)
Definition first_such (P : text -> Prop) (n : text) (l : list text) : Prop :=
  exists before after, l = before ++ n :: after /\ P n /\ Forall (fun m => ~ P m) before.
