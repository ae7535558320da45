(** Specification vocabulary: directory trees. *)
From Coq Require Import List.
From Verif Require Import M_Dirs.
Import ListNotations.

(** q is p or a directory above it *)
Definition above (q p : dpath) : Prop := exists l, p = l ++ q.
(** The root is a directory, and so is what contains something *)
Definition tree (fs : dfs) : Prop :=
  fs [] = Some Dir /\ forall x p n, fs (x :: p) = Some n -> fs p = Some Dir.
(** The other processes only make directories, and keep a tree a tree *)
Definition only_makes_dirs (env : nat -> dfs -> dfs) : Prop :=
  forall k fs, tree fs -> tree (env k fs) /\ forall p, env k fs p = fs p \/ fs p = None /\ env k fs p = Some Dir.
(** fs with the missing directories of the path to p *)
Definition with_dirs (fs fs' : dfs) (p : dpath) : Prop :=
  forall q, (above q p -> fs' q = Some Dir) /\ (~ above q p -> fs' q = fs q).
(** nobody else acts *)
Definition alone : nat -> dfs -> dfs := fun _ fs => fs.
