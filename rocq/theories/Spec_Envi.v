(** Specification vocabulary for the ENVI properties C01-C06: which header
    dictionaries are clean, and what reading them back must give.  It uses the
    value types of the model but none of its parsing or writing functions. *)
From Verif Require Import M_Envi.
Open Scope list_scope.

(** No line break and none of the characters that structure a header. *)
Definition no_char (c : ascii) (t : text) : Prop := ~ In c t.

(** A usable key: not empty, no surrounding blanks, one line, no '=', no braces *)
Record clean_key (k : text) : Prop := {
  ck_nonempty : k <> [];
  ck_stripped : strip k = k;
  ck_nl : no_char ch_nl k; ck_cr : no_char ch_cr k;
  ck_eq : no_char "="%char k; ck_lb : no_char "{"%char k; ck_rb : no_char "}"%char k }.

(** A usable plain value: no surrounding blanks, one line, no '=', no '{' *)
Record clean_value (v : text) : Prop := {
  cv_stripped : strip v = v;
  cv_nl : no_char ch_nl v; cv_cr : no_char ch_cr v;
  cv_eq : no_char "="%char v; cv_lb : no_char "{"%char v }.

(** One number of a bracketed list: not empty, no blank, no comma, no brace *)
Definition clean_token (t : text) : Prop :=
  t <> [] /\
  Forall (fun c => is_space c = false /\ c <> ","%char /\ c <> "{"%char /\ c <> "}"%char) t.

(** The four kinds of header entries *)
Inductive entry :=
| EInt (k : text) (z : Z)               (* k = integer *)
| EText (k v : text)                    (* k = plain text *)
| EBrace (k body : text)                (* k = {body}, read as text *)
| EFloats (k : text) (toks : list text). (* k = {tok, tok, ...}, a list of numbers *)

Definition entry_key (e : entry) : text :=
  match e with EInt k _ | EText k _ | EBrace k _ | EFloats k _ => k end.

(** The keys of the ENVI format that hold integers and lists of numbers *)
Definition int_key (k : text) : Prop :=
  In (string_of_list_ascii (lower k))
     ["samples"; "lines"; "bands"; "header offset"; "data type"; "byte order";
      "x start"; "y start"]%string.
Definition float_key (k : text) : Prop :=
  In (string_of_list_ascii (lower k)) ["fwhm"; "wavelength"]%string.

(** The dictionary item a caller passes to the writer for an entry *)
Definition entry_item (e : entry) : text * wval :=
  match e with
  | EInt k z => (k, WInt z)
  | EText k v => (k, WStr v)
  | EBrace k body => (k, WStr (txt "{" ++ body ++ txt "}"))
  | EFloats k toks => (k, WStr (txt "{" ++ join (txt ", ") toks ++ txt "}"))
  end.

Definition clean_entry (e : entry) : Prop :=
  clean_key (entry_key e) /\
  match e with
  | EInt k _ => ~ float_key k
  | EText k v => clean_value v /\ ~ int_key k /\ ~ float_key k
  | EBrace k body => no_char "}"%char body /\ no_char ch_cr body
                     /\ ~ int_key k /\ ~ float_key k
  | EFloats k toks => float_key k /\ toks <> [] /\ Forall clean_token toks
  end.

(** What reading back must give: integers for the integer keys, text otherwise
    (the closing brace of a bracketed text is dropped, with the blanks before
    it), numbers for the two numeric lists. *)
Inductive reads_as {F} (num : text -> option F) : entry -> hval F -> Prop :=
| ra_int k z : int_key k -> reads_as num (EInt k z) (HInt z)
| ra_intext k z : ~ int_key k -> reads_as num (EInt k z) (HStr (str_of_Z z))
| ra_text k v : reads_as num (EText k v) (HStr v)
| ra_brace k body : reads_as num (EBrace k body) (HStr (txt "{" ++ rstrip body))
| ra_floats k toks xs :
    Forall2 (fun t x => num t = Some x) toks xs ->
    reads_as num (EFloats k toks) (HArr xs).

(** Every opening brace is closed further on in the text *)
Definition braces_closed (t : text) : Prop :=
  forall a b, t = a ++ "{"%char :: b -> In "}"%char b.

(** The text starts with an entry that opens a brace which is never closed: the first line has the
    brace, and somewhere (before the last character) there is an equals sign *)
Definition unclosed_entry (t : text) : Prop :=
  exists k rest, t = k ++ "{"%char :: rest /\ ~ In ch_nl k /\ ~ In "}"%char t /\ In ch_nl rest /\ In "="%char (removelast t).

(** The codes of the ENVI standard for the dtypes numpy shares with it *)
Definition envi_standard_code (d : np_dtype) : option Z :=
  match d with
  | UInt8 => Some 1 | Int16 => Some 2 | Int32 => Some 3 | Float32 => Some 4
  | Float64 => Some 5 | Complex64 => Some 6 | Complex128 => Some 9
  | UInt16 => Some 12 | UInt32 => Some 13 | Int64 => Some 14 | UInt64 => Some 15
  | _ => None
  end.
