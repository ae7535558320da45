(** resippy/utils/file_utils.py: directories.  A path is the list of its components from the last
    to the first ([] is the root, or the current directory for a relative path); a file system maps
    paths to what is there.  Between any two system calls other processes may change it: [env k]
    is what they do before the k-th call.  Simplified: no permissions, no links, no full disk, and
    no components . or .. *)
From Coq Require Import ZArith.
From Verif Require Export Py Text.
Open Scope list_scope.

Inductive node := File | Dir.
Definition dpath := list text.
Definition dfs := dpath -> option node.
Inductive os_error := FileExists | NotFound | NotADirectory.

Definition dpath_dec (p q : dpath) : {p = q} + {p <> q} := list_eq_dec (list_eq_dec Ascii.ascii_dec) p q.

Section Env.
Variable env : nat -> dfs -> dfs.
(** number of system calls so far, and the file system *)
Definition dstate := (nat * dfs)%type.

(* os.path.exists (os.stat) as called in resippy/utils/file_utils.py:10 and by os.makedirs: seen
   after the others have acted *)
Definition os_exists (p : dpath) (s : dstate) : bool * dstate :=
  let fs := env (fst s) (snd s) in (match fs p with Some _ => true | None => false end, (S (fst s), fs)).
(* os.mkdir, as called by os.makedirs in resippy/utils/file_utils.py:11 *)
Definition os_mkdir (p : dpath) (s : dstate) : option os_error * dstate :=
  let fs := env (fst s) (snd s) in
  match fs p with
  | Some _ => (Some FileExists, (S (fst s), fs))
  | None =>
    match p with
    | [] => (Some NotFound, (S (fst s), fs))
    | _ :: parent =>
      match fs parent with
      | Some Dir => (None, (S (fst s), fun q => if dpath_dec q p then Some Dir else fs q))
      | Some File => (Some NotADirectory, (S (fst s), fs))
      | None => (Some NotFound, (S (fst s), fs))
      end
    end
  end.
(* os.makedirs (of the standard library, exist_ok False), as called in
   resippy/utils/file_utils.py:11: the missing parents first, where that another process has made
   one in the meantime is forgiven, then the directory *)
Fixpoint os_makedirs (p : dpath) (s : dstate) : option os_error * dstate :=
  match p with
  | [] => os_mkdir [] s
  | x :: head =>
    match head with
    | [] => os_mkdir p s
    | _ :: _ =>
      let (ex, s1) := os_exists head s in
      if ex then os_mkdir p s1
      else
        let (e, s2) := os_makedirs head s1 in
        match e with
        | None | Some FileExists => os_mkdir p s2
        | Some _ => (e, s2)
        end
    end
  end.
(* resippy/utils/file_utils.py:8-11 *)
Definition make_dir_if_not_exists (p : dpath) (s : dstate) : option os_error * dstate :=
  let (ex, s1) := os_exists p s in if ex then (None, s1) else os_makedirs p s1.
End Env.

(* resippy/utils/file_utils.py:14-16.  names is what os.listdir gives, in its order; None if it
   raises.  Simplified: nothing changes during the call. *)
Definition get_all_folders_in_dir (fs : dfs) (listdir : dpath -> option (list text)) (d : dpath) : option (list dpath) :=
  match listdir d with
  | None => None
  | Some names => Some (filter (fun p => match fs p with Some Dir => true | _ => false end) (map (fun x => x :: d) names))
  end.
