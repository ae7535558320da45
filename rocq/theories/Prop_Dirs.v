(** C99: making and listing directories. *)
From Coq Require Import List Lia Arith.
From Verif Require Import Py Text M_Dirs Spec_Dirs.
Import ListNotations.

Lemma above_refl p : above p p.
Proof. now exists []. Qed.
Lemma above_cons q x p : above q (x :: p) <-> q = x :: p \/ above q p.
Proof.
  split.
  - intros [[|y l] E]; [left; now symmetry|right]. injection E as <- E. now exists l.
  - intros [ -> |[l ->]]; [apply above_refl|now exists (x :: l)].
Qed.
Lemma above_nil q : above q [] <-> q = [].
Proof. split; [intros [l E]; symmetry in E; now apply app_eq_nil in E|intros ->; apply above_refl]. Qed.
Lemma above_length q p : above q p -> (length q <= length p)%nat.
Proof. intros [l ->]. rewrite app_length. lia. Qed.
Lemma tree_above fs q p n : tree fs -> fs p = Some n -> above q p -> q <> p -> fs q = Some Dir.
Proof.
  intros [T0 T1] E [l ->]. revert n E. induction l as [|x l IH]; intros n E Nq; [contradiction|]. cbn in E. apply T1 in E.
  destruct l as [|y l]; [exact E|]. apply (IH Dir); [exact E|]. cbn. intros Q. apply (f_equal (@length _)) in Q. cbn in Q. rewrite app_length in Q. lia.
Qed.
Lemma tree_dirs fs q p : tree fs -> fs p = Some Dir -> above q p -> fs q = Some Dir.
Proof. intros T E A. destruct (dpath_dec q p) as [ -> |N]; [exact E|]. now apply (tree_above fs q p Dir). Qed.

Lemma exists_alone p k fs : os_exists alone p (k, fs) = (match fs p with Some _ => true | None => false end, (S k, fs)).
Proof. reflexivity. Qed.
Lemma mkdir_alone p s x parent : p = x :: parent -> snd s p = None -> snd s parent = Some Dir ->
  os_mkdir alone p s = (None, (S (fst s), fun q => if dpath_dec q p then Some Dir else snd s q)).
Proof. destruct s as [k fs]. cbn [fst snd]. intros -> H1 H2. unfold os_mkdir, alone. cbn [fst snd]. now rewrite H1, H2. Qed.
Lemma makedirs_alone p : forall k fs, tree fs -> fs p = None ->
  (forall q, above q p -> fs q <> Some File) ->
  exists k' fs', os_makedirs alone p (k, fs) = (None, (k', fs')) /\ with_dirs fs fs' p.
Proof.
  induction p as [|x p IH]; intros k fs T E NF; [destruct T as [T0 _]; rewrite T0 in E; discriminate|].
  assert (STEP : forall k fs0, fs0 p = Some Dir -> with_dirs fs fs0 p -> exists k' fs', os_mkdir alone (x :: p) (k, fs0) = (None, (k', fs')) /\ with_dirs fs fs' (x :: p)).
  { intros k0 fs0 D W. assert (N0 : fs0 (x :: p) = None).
    { destruct (W (x :: p)) as [_ W2]. rewrite W2; [exact E|]. intros A. apply above_length in A. cbn in A. lia. }
    rewrite (mkdir_alone (x :: p) (k0, fs0) x p eq_refl N0 D). cbn [fst snd]. eexists. eexists. split; [reflexivity|]. intros q. split.
    - intros A. destruct (dpath_dec q (x :: p)) as [Q|Q]; [reflexivity|]. apply above_cons in A as [A|A]; [contradiction|]. now apply W.
    - intros A. destruct (dpath_dec q (x :: p)) as [Q|Q]; [exfalso; apply A; rewrite Q; apply above_refl|]. apply W. intros Z. apply A. apply above_cons. now right. }
  assert (ID : fs p = Some Dir -> with_dirs fs fs p).
  { intros D q. split; [|reflexivity]. intros A. now apply (tree_dirs fs q p). }
  cbn [os_makedirs]. destruct p as [|y p]; [apply STEP; [apply T|apply ID, T]|].
  rewrite exists_alone. destruct (fs (y :: p)) as [n|] eqn:EP.
  - assert (D : fs (y :: p) = Some Dir). { destruct n; [|exact EP]. exfalso. apply (NF (y :: p)); [apply above_cons; right; apply above_refl|exact EP]. }
    apply STEP; [exact D|apply ID; congruence].
  - destruct (IH (S k) fs T EP) as (k' & fs' & ER & W); [intros q A; apply NF; apply above_cons; now right|]. rewrite ER. apply STEP; [|exact W]. apply W, above_refl.
Qed.

(** Undisturbed: a path that exists -- as a directory or as a file -- is left alone; otherwise, if
    no file is in the way, the missing directories of the path are made, and nothing else; if a
    file is in the way, the call raises and makes nothing. *)
Theorem C99_make_dir : forall p k fs, tree fs ->
  (fs p <> None -> make_dir_if_not_exists alone p (k, fs) = (None, (S k, fs))) /\
  (fs p = None -> (forall q, above q p -> fs q <> Some File) ->
     exists k' fs', make_dir_if_not_exists alone p (k, fs) = (None, (k', fs')) /\ with_dirs fs fs' p) /\
  (fs p = None -> (exists q, above q p /\ fs q = Some File) ->
     exists k', make_dir_if_not_exists alone p (k, fs) = (Some NotADirectory, (k', fs))).
Proof.
  intros p k fs T. unfold make_dir_if_not_exists. rewrite exists_alone. split; [|split].
  - intros H. destruct (fs p); [reflexivity|contradiction].
  - intros E NF. rewrite E. apply makedirs_alone; assumption.
  - intros E F. rewrite E. destruct F as (q & A & EF). generalize (S k) as j.
    assert (G : forall j, exists k', os_makedirs alone p (j, fs) = (Some NotADirectory, (k', fs))); [|exact G].
    induction p as [|x p IH]; intros j; [destruct T as [T0 _]; rewrite T0 in E; discriminate|].
    apply above_cons in A as [ -> |A]; [rewrite EF in E; discriminate|].
    cbn [os_makedirs]. destruct p as [|y p].
    + apply above_nil in A as ->. destruct T as [T0 _]. rewrite T0 in EF. discriminate.
    + rewrite exists_alone. destruct (fs (y :: p)) as [n|] eqn:EP.
      * unfold os_mkdir. cbn [fst snd]. unfold alone. rewrite E, EP. destruct n; [eexists; reflexivity|].
        exfalso. pose proof (tree_dirs fs q (y :: p) T EP A) as D. rewrite D in EF. discriminate.
      * destruct (IH eq_refl A (S j)) as (k' & ER). rewrite ER. eexists; reflexivity.
Qed.
Print Assumptions C99_make_dir.

(** That the directory then exists: refuted where a file has its name. *)
Theorem C99_file_refuted : exists fs p, tree fs /\ make_dir_if_not_exists alone p (0%nat, fs) = (None, (1%nat, fs)) /\ fs p = Some File.
Proof.
  exists (fun p => match p with [] => Some Dir | [_] => Some File | _ => None end), [txt "log"]. split; [|split; reflexivity].
  split; [reflexivity|]. intros x [|y [|z p]] n H; [reflexivity|discriminate|discriminate].
Qed.
Print Assumptions C99_file_refuted.

Section Schedules.
Variable env : nat -> dfs -> dfs.
Hypothesis HE : only_makes_dirs env.
(** A directory stays one, a missing path stays missing or becomes a directory *)
Definition grows (fs fs' : dfs) : Prop := forall q, fs' q = fs q \/ fs q = None /\ fs' q = Some Dir.
Lemma grows_refl fs : grows fs fs.
Proof. intros q. now left. Qed.
Lemma grows_trans a b c : grows a b -> grows b c -> grows a c.
Proof. intros H1 H2 q. destruct (H1 q) as [E|[E1 E2]]; destruct (H2 q) as [F|[F1 F2]]; [left; congruence|right; split; congruence|right; split; congruence|congruence]. Qed.
Lemma grows_dir a b q : grows a b -> a q = Some Dir -> b q = Some Dir.
Proof. intros H E. destruct (H q) as [F|[F _]]; congruence. Qed.
Lemma grows_nofile a b p : grows a b -> (forall q, above q p -> a q <> Some File) -> forall q, above q p -> b q <> Some File.
Proof. intros H N q A. specialize (N q A). destruct (H q) as [F|[F1 F2]]; congruence. Qed.
Lemma env_grows k fs : tree fs -> tree (env k fs) /\ grows fs (env k fs).
Proof. intros T. destruct (HE k fs T) as [A B]. split; [exact A|]. intros q. destruct (B q) as [E|E]; auto. Qed.
Lemma mkdir_env p x parent k fs : p = x :: parent -> tree fs -> (forall q, above q p -> fs q <> Some File) -> (fs parent = Some Dir) ->
  exists e k' fs', os_mkdir env p (k, fs) = (e, (k', fs')) /\ tree fs' /\ grows fs fs' /\ fs' p = Some Dir /\ (e = None \/ e = Some FileExists).
Proof.
  intros -> T NF D. destruct (env_grows k fs T) as [T1 G1]. unfold os_mkdir. cbn [fst snd]. destruct (env k fs (x :: parent)) as [n|] eqn:E.
  - eexists. eexists. eexists. split; [reflexivity|]. split; [exact T1|]. split; [exact G1|]. split; [|now right].
    rewrite E. destruct n; [|reflexivity]. exfalso. apply (grows_nofile fs (env k fs) (x :: parent) G1 NF (x :: parent) (above_refl _) E).
  - rewrite (grows_dir _ _ _ G1 D). eexists. eexists. eexists. split; [reflexivity|].
    split; [|split; [|split; [|now left]]].
    + destruct T1 as [R0 R1]. split; [destruct (dpath_dec [] (x :: parent)); [discriminate|exact R0]|]. intros y q n H.
      destruct (dpath_dec q (x :: parent)) as [Q|Q]; [reflexivity|]. destruct (dpath_dec (y :: q) (x :: parent)) as [Q'|Q']; [|now apply (R1 y q n)].
      injection Q' as _ ->. now apply (grows_dir fs).
    + intros q. destruct (dpath_dec q (x :: parent)) as [ -> |Q]; [|apply G1]. right. split; [|reflexivity]. destruct (G1 (x :: parent)) as [F|[F _]]; congruence.
    + destruct (dpath_dec (x :: parent) (x :: parent)); [reflexivity|contradiction].
Qed.
Lemma makedirs_env p : forall k fs, p <> [] -> tree fs -> (forall q, above q p -> fs q <> Some File) ->
  exists e k' fs', os_makedirs env p (k, fs) = (e, (k', fs')) /\ tree fs' /\ grows fs fs' /\ fs' p = Some Dir /\ (e = None \/ e = Some FileExists).
Proof.
  induction p as [|x p IH]; intros k fs NE T NF; [contradiction|]. cbn [os_makedirs].
  destruct p as [|y p]; [apply (mkdir_env [x] x []); [reflexivity|exact T|exact NF|apply T]|].
  unfold os_exists. cbn [fst snd]. destruct (env_grows k fs T) as [T1 G1]. set (fs1 := env k fs) in *.
  assert (NF1 : forall q, above q (x :: y :: p) -> fs1 q <> Some File) by now apply (grows_nofile fs).
  destruct (fs1 (y :: p)) as [n|] eqn:E.
  - assert (D : fs1 (y :: p) = Some Dir). { rewrite E. destruct n; [|reflexivity]. exfalso. apply (NF1 (y :: p)); [apply above_cons; right; apply above_refl|exact E]. }
    destruct (mkdir_env (x :: y :: p) x (y :: p) (S k) fs1 eq_refl T1 NF1 D) as (e & k' & fs' & R1 & R2 & R3 & R4 & R5). exists e, k', fs'.
    split; [exact R1|]. split; [exact R2|]. split; [now apply (grows_trans fs fs1)|]. split; assumption.
  - destruct (IH (S k) fs1) as (e & k' & fs' & R1 & R2 & R3 & R4 & R5); [discriminate|exact T1|intros q A; apply NF1, above_cons; now right|].
    rewrite R1. assert (NF2 : forall q, above q (x :: y :: p) -> fs' q <> Some File) by now apply (grows_nofile fs1).
    destruct (mkdir_env (x :: y :: p) x (y :: p) k' fs' eq_refl R2 NF2 R4) as (e2 & k2 & fs2 & S1 & S2 & S3 & S4 & S5).
    exists e2, k2, fs2. split; [destruct R5 as [ -> | -> ]; exact S1|]. split; [exact S2|]. split; [|split; assumption]. apply (grows_trans fs fs1); [exact G1|]. now apply (grows_trans fs1 fs').
Qed.
End Schedules.

(** For every schedule of other processes that only make directories (other calls of this
    function among them), with no file in the way: after the call the directory exists, nothing
    has been removed and only directories added; and the call either returns or raises
    FileExistsError, nothing else. *)
Theorem C99_schedules : forall env p k fs, only_makes_dirs env -> tree fs -> (forall q, above q p -> fs q <> Some File) ->
  exists e k' fs', make_dir_if_not_exists env p (k, fs) = (e, (k', fs')) /\
    fs' p = Some Dir /\ (forall q, fs' q = fs q \/ fs q = None /\ fs' q = Some Dir) /\ (e = None \/ e = Some FileExists).
Proof.
  intros env p k fs HE T NF. unfold make_dir_if_not_exists, os_exists. cbn [fst snd].
  destruct (env_grows env HE k fs T) as [T1 G1]. assert (NF1 := grows_nofile fs (env k fs) p G1 NF).
  destruct (env k fs p) as [n|] eqn:E.
  - exists None, (S k), (env k fs). split; [reflexivity|]. split; [|split; [exact G1|now left]]. rewrite E. destruct n; [|reflexivity]. exfalso. apply (NF1 p (above_refl p) E).
  - assert (NE : p <> []) by (intros ->; destruct T1 as [T0 _]; congruence).
    destruct (makedirs_env env HE p (S k) (env k fs) NE T1 NF1) as (e & k' & fs' & R1 & R2 & R3 & R4 & R5). exists e, k', fs'. split; [exact R1|]. split; [exact R4|]. split; [|exact R5].
    exact (grows_trans _ _ _ G1 R3).
Qed.
Print Assumptions C99_schedules.

(** That a call for a directory never raises because the directory exists: refuted by the schedule
    in which another process makes it between the check and the creation. *)
Theorem C99_race_refuted : exists env fs p k' fs', only_makes_dirs env /\ tree fs /\ fs p = None /\
  make_dir_if_not_exists env p (0%nat, fs) = (Some FileExists, (k', fs')) /\ fs' p = Some Dir.
Proof.
  set (fs0 := fun p : dpath => match p with [] => Some Dir | _ => None end).
  exists (fun k fs => if Nat.eqb k 1 then (fun q => if dpath_dec q [txt "logs"] then match fs q with Some n => Some n | None => Some Dir end else fs q) else fs), fs0, [txt "logs"].
  eexists. eexists. split; [|split; [|split; [reflexivity|split; [reflexivity|reflexivity]]]].
  - intros k fs [T0 T1]. destruct (Nat.eqb k 1); [|split; [now split|intros p; now left]]. split.
    + split; [destruct (dpath_dec [] [txt "logs"]); [discriminate|exact T0]|]. intros x p n H.
      destruct (dpath_dec (x :: p) [txt "logs"]) as [Q|Q].
      * injection Q as _ ->. destruct (dpath_dec [] [txt "logs"]); [discriminate|exact T0].
      * apply T1 in H. destruct (dpath_dec p [txt "logs"]) as [Q'|Q']; [|exact H]. rewrite H. reflexivity.
    + intros p. destruct (dpath_dec p [txt "logs"]) as [Q|Q]; [|now left]. destruct (fs p) as [n|]; [now left|right]. auto.
  - split; [reflexivity|]. intros x p n H. discriminate.
Qed.
Print Assumptions C99_race_refuted.

(** The folders of a directory: exactly its entries that are directories, in the order listed; an
    error exactly where listing it is one. *)
Theorem C99_folders : forall fs listdir d,
  (get_all_folders_in_dir fs listdir d = None <-> listdir d = None) /\
  forall names l, listdir d = Some names -> get_all_folders_in_dir fs listdir d = Some l ->
    (forall p, In p l <-> exists x, In x names /\ p = x :: d /\ fs p = Some Dir) /\
    (forall a b x y, names = a ++ x :: b -> In y b -> fs (x :: d) = Some Dir -> fs (y :: d) = Some Dir ->
       exists l1 l2, l = l1 ++ (x :: d) :: l2 /\ In (y :: d) l2).
Proof.
  intros fs listdir d. unfold get_all_folders_in_dir. split; [destruct (listdir d); split; congruence|]. intros names l -> H. injection H as <-. split.
  - intros p. rewrite filter_In, in_map_iff. split.
    + intros [(x & <- & Hx) F]. exists x. destruct (fs (x :: d)) as [[|]|]; try discriminate. auto.
    + intros (x & Hx & -> & F). rewrite F. split; [now exists x|reflexivity].
  - intros a b x y -> Hy Fx Fy. rewrite map_app, filter_app. cbn [map filter]. rewrite Fx. eexists. eexists. split; [reflexivity|]. apply filter_In. rewrite Fy. split; [|reflexivity]. apply in_map_iff. now exists y.
Qed.
Print Assumptions C99_folders.

Example C99_met : only_makes_dirs alone /\ exists fs, tree fs /\ fs [txt "b"; txt "a"] = None /\ (forall q, above q [txt "b"; txt "a"] -> fs q <> Some File).
Proof.
  split; [intros k fs T; split; [exact T|intros p; now left]|]. exists (fun p => match p with [] => Some Dir | _ => None end). split; [|split; [reflexivity|]].
  - split; [reflexivity|]. discriminate.
  - intros [|x q] _; discriminate.
Qed.
