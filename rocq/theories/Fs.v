(** A file system: a finite map from paths to nodes, with the operations of
    [std::fs] the project uses. *)
From Coq Require Import List Ascii String Bool Arith Lia.
From stdpp Require Import gmap strings.
From Verif Require Import Base Dirs.
Import ListNotations.

(** A node of the file system.  Simplification: no symbolic links, permissions,
    or special files. *)
Inductive node := File (b : bytes) | Dir.

(** A file system maps component paths to nodes; the root [[]] always is a directory. *)
Notation fs := (gmap path node).

(** [Path::exists] (std). *)
Definition exists_ (m : fs) (p : path) : bool :=
  match p with [] => true | _ => match m !! p with Some _ => true | None => false end end.

(** [Path::is_dir] (std). *)
Definition is_dir (m : fs) (p : path) : bool :=
  match p with [] => true | _ => match m !! p with Some Dir => true | _ => false end end.

(** [std::fs::create_dir_all] (std), walking down from an existing directory
    [pre]; stops with failure ([false]) at a component that is a file.  What was
    created stays. *)
Fixpoint mkdirs (m : fs) (pre : path) (rest : path) : fs * bool :=
  match rest with
  | [] => (m, true)
  | c :: rest' =>
      let p := pre ++ [c] in
      match m !! p with
      | Some Dir => mkdirs m p rest'
      | Some (File _) => (m, false)
      | None => mkdirs (<[p := Dir]> m) p rest'
      end
  end.
Definition create_dir_all (m : fs) (d : path) : fs * bool := mkdirs m [] d.

(** The parent of a path. *)
Definition parent (p : path) : path := removelast p.

(** [std::fs::write] (std): create or truncate, then write everything.  Fails if
    the parent is not a directory or the path is a directory.  Other I/O errors
    and partial writes are in WriteConc.v. *)
Definition fs_write (m : fs) (p : path) (data : bytes) : option fs :=
  if is_dir m (parent p) then
    match p with
    | [] => None
    | _ => match m !! p with
           | Some Dir => None
           | _ => Some (<[p := File data]> m)
           end
    end
  else None.

(** [std::fs::read] (std). *)
Definition fs_read (m : fs) (p : path) : option bytes :=
  match m !! p with Some (File b) => Some b | _ => None end.

(** [std::fs::read_dir] (std): [ns] lists the entries of [d], each once, in an
    arbitrary order. *)
Definition lists_dir (m : fs) (d : path) (ns : list str) : Prop :=
  is_dir m d = true /\ NoDup ns /\ forall n, In n ns <-> m !! (d ++ [n]) <> None.

(** [d] is an initial part of [p]. *)
Fixpoint is_prefix (d p : path) : bool :=
  match d, p with
  | [], _ => true
  | a :: d', b :: p' => if str_dec a b then is_prefix d' p' else false
  | _ :: _, [] => false
  end.

(** [std::fs::remove_dir_all] (std) on an existing directory; fails on a file. *)
Definition remove_dir_all (m : fs) (d : path) : option fs :=
  match m !! d with
  | Some Dir => Some (filter (fun pn => is_prefix d pn.1 = false) m)
  | _ => None
  end.

(** Well-formed: every node's parent is a directory. *)
Definition fs_wf (m : fs) : Prop := forall p n, m !! p = Some n -> is_dir m (parent p) = true.

(** * Lemmas *)

Lemma is_prefix_spec d p : is_prefix d p = true <-> under d p.
Proof.
  unfold under. revert p; induction d as [|a d IH]; intros p; simpl.
  - split; eauto.
  - destruct p as [|b p].
    + split; [discriminate|]. intros [q H]; discriminate.
    + destruct (str_dec a b) as [->|n].
      * rewrite IH. split; intros [q H]; exists q; simpl in *; congruence.
      * split; [discriminate|]. intros [q H]. simpl in H. congruence.
Qed.

Lemma parent_snoc d n : parent (d ++ [n]) = d.
Proof. apply removelast_last. Qed.

Lemma mkdirs_frame m pre rest p :
  (forall q r, rest = q ++ r -> q <> [] -> p <> pre ++ q) ->
  (mkdirs m pre rest).1 !! p = m !! p.
Proof.
  revert m pre; induction rest as [|c rest IH]; intros m pre H; simpl; [reflexivity|].
  assert (Hp : p <> pre ++ [c]). { apply (H [c] rest); [reflexivity|discriminate]. }
  assert (H' : forall q r, rest = q ++ r -> q <> [] -> p <> (pre ++ [c]) ++ q).
  { intros q r E N. rewrite <- app_assoc. apply (H (c :: q) r); [simpl; congruence|discriminate]. }
  destruct (m !! (pre ++ [c])) as [[b|]|] eqn:E; simpl.
  - reflexivity.
  - apply IH; exact H'.
  - rewrite IH by exact H'. apply lookup_insert_ne. congruence.
Qed.

Lemma mkdirs_keep m pre rest p n : m !! p = Some n -> (mkdirs m pre rest).1 !! p = Some n.
Proof.
  revert m pre; induction rest as [|c rest IH]; intros m pre H; simpl; [exact H|].
  destruct (m !! (pre ++ [c])) as [[b|]|] eqn:E; simpl; auto.
  apply IH. rewrite lookup_insert_ne; [exact H|]. intros <-. congruence.
Qed.

Lemma mkdirs_new m pre rest p n :
  (mkdirs m pre rest).1 !! p = Some n -> m !! p = Some n \/ (n = Dir /\ exists q, rest <> [] /\ q <> [] /\ p = pre ++ q /\ is_prefix q rest = true).
Proof.
  revert m pre; induction rest as [|c rest IH]; intros m pre H; simpl in H; [auto|].
  assert (K : forall m', (mkdirs m' (pre ++ [c]) rest).1 !! p = Some n ->
      m' !! p = Some n \/ n = Dir /\ (exists q, c :: rest <> [] /\ q <> [] /\ p = pre ++ q /\ is_prefix q (c :: rest) = true)).
  { intros m' H'. apply IH in H' as [H'|(-> & q & N & Nq & -> & P)]; [auto|].
    right. split; [reflexivity|]. exists (c :: q). split; [discriminate|]. split; [discriminate|].
    split; [rewrite <- app_assoc; reflexivity|]. simpl. destruct (str_dec c c); [exact P|contradiction]. }
  destruct (m !! (pre ++ [c])) as [[b|]|] eqn:E; simpl in H.
  - auto.
  - apply K in H. exact H.
  - apply K in H as [H|H]; [|auto].
    destruct (decide (p = pre ++ [c])) as [->|Hne].
    + rewrite lookup_insert in H. injection H as <-. right. split; [reflexivity|].
      exists [c]. split; [discriminate|]. split; [discriminate|]. split; [reflexivity|].
      simpl. destruct (str_dec c c); [reflexivity|contradiction].
    + rewrite lookup_insert_ne in H by congruence. auto.
Qed.

Lemma mkdirs_ok_dir m pre rest :
  is_dir m pre = true -> (mkdirs m pre rest).2 = true ->
  is_dir (mkdirs m pre rest).1 (pre ++ rest) = true.
Proof.
  revert m pre; induction rest as [|c rest IH]; intros m pre D H; simpl in *.
  - now rewrite app_nil_r.
  - replace (pre ++ c :: rest) with ((pre ++ [c]) ++ rest) by (rewrite <- app_assoc; reflexivity).
    destruct (m !! (pre ++ [c])) as [[b|]|] eqn:E; simpl in *.
    + discriminate.
    + apply IH; [|exact H]. unfold is_dir. destruct (pre ++ [c]) eqn:Epc; [destruct pre; discriminate|].
      rewrite E. reflexivity.
    + apply IH; [|exact H]. unfold is_dir. destruct (pre ++ [c]) as [|x y] eqn:Epc; [destruct pre; discriminate|].
      now rewrite lookup_insert.
Qed.

(** No proper ancestor of [d], nor [d] itself, is a file. *)
Definition can_mkdir (m : fs) (d : path) : Prop :=
  forall q b, is_prefix q d = true -> m !! q <> Some (File b).

Lemma mkdirs_ok m pre rest :
  (forall q b, is_prefix q rest = true -> m !! (pre ++ q) <> Some (File b)) ->
  (mkdirs m pre rest).2 = true.
Proof.
  revert m pre; induction rest as [|c rest IH]; intros m pre H; simpl; [reflexivity|].
  assert (H' : forall q b, is_prefix q rest = true -> m !! ((pre ++ [c]) ++ q) <> Some (File b)).
  { intros q b P. rewrite <- app_assoc. apply (H (c :: q) b). simpl.
    destruct (str_dec c c); [exact P|contradiction]. }
  destruct (m !! (pre ++ [c])) as [[b|]|] eqn:E; simpl.
  - exfalso. apply (H [c] b); [|exact E]. simpl. destruct (str_dec c c); [reflexivity|contradiction].
  - apply IH; exact H'.
  - apply IH. intros q b P. destruct (decide (pre ++ [c] = (pre ++ [c]) ++ q)) as [<-|Hne].
    + rewrite lookup_insert. discriminate.
    + rewrite lookup_insert_ne by exact Hne. apply H'; exact P.
Qed.

Lemma create_dir_all_ok m d :
  can_mkdir m d -> (create_dir_all m d).2 = true.
Proof. intros H. apply mkdirs_ok. intros q b P. apply H. exact P. Qed.

Lemma create_dir_all_keep m d p n : m !! p = Some n -> (create_dir_all m d).1 !! p = Some n.
Proof. apply mkdirs_keep. Qed.

Lemma create_dir_all_frame m d p : is_prefix p d = false -> (create_dir_all m d).1 !! p = m !! p.
Proof.
  intros H. apply mkdirs_frame. intros q r E N ->. subst d. simpl in H.
  assert (is_prefix q (q ++ r) = true) by (apply is_prefix_spec; exists r; reflexivity). congruence.
Qed.

Lemma create_dir_all_new m d p n :
  (create_dir_all m d).1 !! p = Some n -> m !! p = Some n \/ (n = Dir /\ p <> [] /\ is_prefix p d = true).
Proof.
  intros H. apply mkdirs_new in H as [H|(-> & q & _ & Nq & -> & P)]; auto.
Qed.

Lemma create_dir_all_dir m d :
  (create_dir_all m d).2 = true -> is_dir (create_dir_all m d).1 d = true.
Proof. intros H. apply (mkdirs_ok_dir m [] d); [reflexivity|exact H]. Qed.

Lemma mkdirs_noop m pre rest :
  (forall q, q <> [] -> is_prefix q rest = true -> m !! (pre ++ q) = Some Dir) -> mkdirs m pre rest = (m, true).
Proof.
  revert pre; induction rest as [|c rest IH]; intros pre H; simpl; [reflexivity|].
  rewrite (H [c]); [|discriminate|simpl; destruct (str_dec c c); [reflexivity|contradiction]].
  apply IH. intros q N P. rewrite <- app_assoc. apply (H (c :: q)); [discriminate|]. simpl.
  destruct (str_dec c c); [exact P|contradiction].
Qed.

Lemma create_dir_all_noop m d :
  (forall q, q <> [] -> is_prefix q d = true -> m !! q = Some Dir) -> create_dir_all m d = (m, true).
Proof. intros H. apply mkdirs_noop. exact H. Qed.

Lemma mkdirs_all m pre rest q :
  (mkdirs m pre rest).2 = true -> q <> [] -> is_prefix q rest = true ->
  (mkdirs m pre rest).1 !! (pre ++ q) = Some Dir.
Proof.
  revert m pre q; induction rest as [|c rest IH]; intros m pre q H N P; simpl in *.
  - destruct q; [contradiction|discriminate].
  - destruct q as [|c' q]; [contradiction|]. simpl in P.
    destruct (str_dec c' c) as [->|]; [|discriminate].
    destruct (m !! (pre ++ [c])) as [[b|]|] eqn:E; simpl in *.
    + discriminate.
    + destruct q as [|x q].
      * apply mkdirs_keep. exact E.
      * replace (pre ++ c :: x :: q) with ((pre ++ [c]) ++ x :: q) by (rewrite <- app_assoc; reflexivity).
        apply IH; [exact H|discriminate|exact P].
    + destruct q as [|x q].
      * apply mkdirs_keep. apply lookup_insert.
      * replace (pre ++ c :: x :: q) with ((pre ++ [c]) ++ x :: q) by (rewrite <- app_assoc; reflexivity).
        apply IH; [exact H|discriminate|exact P].
Qed.

Lemma create_dir_all_all m d q :
  (create_dir_all m d).2 = true -> q <> [] -> is_prefix q d = true ->
  (create_dir_all m d).1 !! q = Some Dir.
Proof. intros H N P. apply (mkdirs_all m [] d q H N P). Qed.

Lemma fs_write_some m p data m' :
  fs_write m p data = Some m' ->
  m' = <[p := File data]> m /\ is_dir m (parent p) = true /\ m !! p <> Some Dir /\ p <> [].
Proof.
  unfold fs_write. destruct (is_dir m (parent p)) eqn:D; [|discriminate].
  destruct p as [|c p]; [discriminate|].
  destruct (m !! (c :: p)) as [[b|]|] eqn:E; try discriminate; intros [= <-];
    repeat split; congruence.
Qed.

Lemma fs_write_ok m p data :
  is_dir m (parent p) = true -> p <> [] -> m !! p <> Some Dir ->
  fs_write m p data = Some (<[p := File data]> m).
Proof.
  intros D N H. unfold fs_write. rewrite D. destruct p; [contradiction|].
  destruct (m !! (l :: p)) as [[b|]|] eqn:E; congruence.
Qed.

Lemma remove_dir_all_some m d m' :
  remove_dir_all m d = Some m' ->
  m !! d = Some Dir /\
  (forall p, under d p -> m' !! p = None) /\ (forall p, ~ under d p -> m' !! p = m !! p).
Proof.
  unfold remove_dir_all. destruct (m !! d) as [[b|]|] eqn:E; try discriminate. intros [= <-].
  split; [reflexivity|]. split.
  - intros p U. apply map_filter_lookup_None. right. intros n _. simpl.
    apply is_prefix_spec in U. congruence.
  - intros p U. destruct (m !! p) as [n|] eqn:F.
    + apply map_filter_lookup_Some. split; [exact F|]. simpl.
      destruct (is_prefix d p) eqn:G; [|reflexivity]. apply is_prefix_spec in G. contradiction.
    + apply map_filter_lookup_None. left. exact F.
Qed.
