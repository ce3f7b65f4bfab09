(** The directories in which data of fuzz targets is kept (internal/src/dirs.rs). *)
From Coq Require Import List Ascii String Bool Arith Lia.
From Verif Require Import Base Utf8 Lossy Env.
Import ListNotations.

(** A path as the list of its components below the root; two paths are the same
    place in the file system iff their components are equal (no symbolic links, no
    [..] components).  Simplification: what is joined to a path is one component.  So
    it is if TEST_FUZZ_ID and the names of crates and targets have no slashes: see
    DirsText.v, where any text is joined, and C103; everything that mentions ids is
    about such ids. *)
Notation path := (list str).

(** [PathBuf::join] with a relative one-component argument (std). *)
Definition pjoin (p : path) (s : str) : path := p ++ [s].

Definition slash : ascii := "/"%char.
Definition colon : ascii := ":"%char.
Definition dash : ascii := "-"%char.
Definition underscore : ascii := "_"%char.

(** internal/src/dirs.rs:105-107 [thread_id]: the debug form [ThreadId(n)] with the
    parentheses replaced.  [digits] is the decimal form of the thread's number. *)
Definition thread_id (digits : str) : str :=
  replace_char ")"%char underscore (replace_char "("%char underscore
    (lit "ThreadId(" ++ digits ++ lit ")")).

(** internal/src/dirs.rs:95-103 [maybe_id]: TEST_FUZZ_ID, or in the project's own
    tests ([in_test] = Some digits) the thread id. *)
Definition maybe_id (e : env) (in_test : option str) : option str :=
  match var e (lit "TEST_FUZZ_ID") with
  | Some id => Some id
  | None => match in_test with
            | Some digits => Some (thread_id digits)
            | None => None
            end
  end.

(** internal/src/dirs.rs:86-93 [path_segment], given the result of [maybe_id]. *)
Definition path_segment (id : option str) (s : str) : str :=
  s ++ (match id with Some _ => lit "_" | None => [] end)
    ++ (match id with Some i => i | None => [] end).

(** internal/src/dirs.rs:110-124 [target_directory]; [td] is the target directory
    reported by cargo metadata.  The assertion is explicit. *)
Definition target_directory (td : path) (coverage fuzzing : bool) : outcome path :=
  if (coverage && fuzzing)%bool then Panic
  else
    let td := if coverage then pjoin td (lit "coverage") else td in
    let td := if fuzzing then pjoin td (lit "afl") else td in
    Ret td.

(** An absolute path as text. *)
Definition path_text (p : path) : bytes := List.concat (map (fun c => lit "/" ++ c) p).

(** The message with which the tool reports a failed operation on a path, e.g.
    cargo-test-fuzz/src/lib.rs:781. *)
Definition failed_for (op : str) (p : path) : str :=
  lit "`" ++ op ++ lit "` failed for `" ++ lossy (path_text p) ++ lit "`".

(** internal/src/dirs.rs:127-133 [path_from_args_type]; the argument is
    [type_name::<T>()]. *)
Definition path_from_args_type (type_name : str) : outcome str :=
  match str_find (lit "_fuzz__") type_name with
  | Some n => Ret (firstn n type_name)
  | None => Panic
  end.

(** internal/src/dirs.rs:136-138 [path_from_target]. *)
Definition path_from_target (krate target : str) : str :=
  replace_char dash underscore krate ++ lit "::" ++ target.

(** The kinds of data directory. *)
Inductive kind := ImplGenericArgs | GenericArgs | Corpus | Output.

(** internal/src/dirs.rs:62-83: [impl_generic_args_directory],
    [generic_args_directory], [corpus_directory], [output_directory]. *)
Definition kind_directory (td : path) (id : option str) (k : kind) : outcome path :=
  match k with
  | ImplGenericArgs => bind (target_directory td false false)
                            (fun d => Ret (pjoin d (path_segment id (lit "impl_generic_args"))))
  | GenericArgs => bind (target_directory td false false)
                        (fun d => Ret (pjoin d (path_segment id (lit "generic_args"))))
  | Corpus => bind (target_directory td false false)
                   (fun d => Ret (pjoin d (path_segment id (lit "corpus"))))
  | Output => bind (target_directory td false true)
                   (fun d => Ret (pjoin d (path_segment id (lit "output"))))
  end.

(** internal/src/dirs.rs:17-19, 27-29, 37-39, 57-59: the [*_directory_from_target]
    functions. *)
Definition dir_from_target (td : path) (id : option str) (k : kind) (krate target : str)
  : outcome path :=
  bind (kind_directory td id k) (fun d => Ret (pjoin d (path_from_target krate target))).

(** internal/src/dirs.rs:12-14, 22-24, 32-34: the [*_directory_from_args_type]
    functions. *)
Definition dir_from_args_type (td : path) (id : option str) (k : kind) (type_name : str)
  : outcome path :=
  bind (kind_directory td id k)
       (fun d => bind (path_from_args_type type_name) (fun p => Ret (pjoin d p))).

(** internal/src/dirs.rs:42-54 [crashes_directory_from_target] and so on:
    [sub] is crashes, hangs or queue. *)
Definition output_subdir (td : path) (id : option str) (sub krate target : str) : outcome path :=
  bind (dir_from_target td id Output krate target)
       (fun d => Ret (pjoin (pjoin d (lit "default")) sub)).

(** * Specifications *)

(** The crate name rustc gives a cargo target called [krate]: dashes become
    underscores. *)
Definition crate_of (krate c : str) : Prop :=
  Forall2 (fun a b => b = if ascii_dec a "-" then "_"%char else a) krate c.

(** The name [std::any::type_name] gives a type defined inside the module
    generated for target [target] (a path like [m::foo]) of crate [c]. *)
Definition args_type_name (c target rest : str) : str :=
  c ++ lit "::" ++ target ++ lit "_fuzz__" ++ rest.

(** [p] lies in directory [d] (or is [d]). *)
Definition under (d p : path) : Prop := exists q, p = d ++ q.

(** * Proofs *)

Lemma crate_of_replace krate c : crate_of krate c <-> c = replace_char dash underscore krate.
Proof.
  unfold crate_of. split.
  - induction 1 as [|a b l l' Hab Hl IH]; simpl; [reflexivity|]. subst. reflexivity.
  - intros ->. induction krate as [|a l IH]; simpl; constructor; auto.
Qed.

Lemma args_find c target rest :
  let q := c ++ lit "::" ++ target in
  ~ occurs (lit "_fuzz__") (q ++ lit "_fuzz_") ->
  str_find (lit "_fuzz__") (args_type_name c target rest) = Some (List.length q).
Proof.
  intros q H. apply str_find_first.
  - exists q, rest. split; [|reflexivity]. unfold args_type_name, q. rewrite <- !app_assoc. reflexivity.
  - intros j Hj (a & b & E & L). apply H.
    assert (E' : (q ++ lit "_fuzz_") ++ (lit "_" ++ rest) = a ++ lit "_fuzz__" ++ b).
    { rewrite <- E. unfold args_type_name, q. rewrite <- !app_assoc. reflexivity. }
    exists a. exists (skipn (List.length a + 7) (q ++ lit "_fuzz_")).
    rewrite <- (firstn_skipn (List.length a + 7) (q ++ lit "_fuzz_")) at 1.
    rewrite app_assoc. f_equal.
    assert (Hl : List.length a + 7 <= List.length (q ++ lit "_fuzz_")).
    { rewrite app_length. simpl. lia. }
    replace (firstn (List.length a + 7) (q ++ lit "_fuzz_"))
      with (firstn (List.length a + 7) ((q ++ lit "_fuzz_") ++ lit "_" ++ rest)).
    + rewrite E'. rewrite firstn_app_2. reflexivity.
    + rewrite (firstn_app (List.length a + 7) (q ++ lit "_fuzz_")).
      replace (List.length a + 7 - List.length (q ++ lit "_fuzz_")) with 0 by lia.
      now rewrite firstn_O, app_nil_r.
Qed.

Lemma agreement krate c target rest :
  crate_of krate c ->
  ~ occurs (lit "_fuzz__") (c ++ lit "::" ++ target ++ lit "_fuzz_") ->
  path_from_args_type (args_type_name c target rest) = Ret (path_from_target krate target).
Proof.
  intros Hc H. unfold path_from_args_type.
  assert (H' : ~ occurs (lit "_fuzz__") ((c ++ lit "::" ++ target) ++ lit "_fuzz_")).
  { rewrite <- !app_assoc. exact H. }
  rewrite (args_find c target rest H'). f_equal.
  unfold args_type_name, path_from_target.
  replace (c ++ lit "::" ++ target ++ lit "_fuzz__" ++ rest)
    with ((c ++ lit "::" ++ target) ++ lit "_fuzz__" ++ rest) by (rewrite <- !app_assoc; reflexivity).
  rewrite firstn_app, Nat.sub_diag, firstn_all, firstn_O, app_nil_r.
  apply crate_of_replace in Hc. subst c. reflexivity.
Qed.

Lemma disagreement krate c target rest :
  crate_of krate c ->
  occurs (lit "_fuzz__") (c ++ lit "::" ++ target ++ lit "_fuzz_") ->
  exists p s, s <> [] /\ path_from_args_type (args_type_name c target rest) = Ret p /\
              path_from_target krate target = p ++ s.
Proof.
  intros Hc (a & b & E). unfold path_from_args_type.
  set (q := c ++ lit "::" ++ target) in *.
  assert (Eq : args_type_name c target rest = q ++ lit "_fuzz_" ++ lit "_" ++ rest).
  { unfold args_type_name, q. rewrite <- !app_assoc. reflexivity. }
  assert (Ew : q ++ lit "_fuzz_" = a ++ lit "_fuzz__" ++ b).
  { rewrite <- E. unfold q. rewrite <- !app_assoc. reflexivity. }
  assert (La : List.length a < List.length q).
  { apply (f_equal (@List.length _)) in Ew. rewrite !app_length in Ew. simpl in Ew. lia. }
  assert (Oc : occurs_at (lit "_fuzz__") (args_type_name c target rest) (List.length a)).
  { exists a, (b ++ lit "_" ++ rest). split; [|reflexivity].
    rewrite Eq, app_assoc, Ew, <- !app_assoc. reflexivity. }
  destruct (str_find (lit "_fuzz__") (args_type_name c target rest)) as [n|] eqn:F.
  - apply str_find_some in F as [_ F2].
    assert (Hn : n <= List.length a).
    { destruct (le_lt_dec n (List.length a)); auto. exfalso; eapply F2; eauto. }
    exists (firstn n q), (skipn n q). split; [|split].
    + intros Hs. apply (f_equal (@List.length _)) in Hs. rewrite skipn_length in Hs. simpl in Hs. lia.
    + f_equal. rewrite Eq, firstn_app. replace (n - List.length q) with 0 by lia.
      now rewrite firstn_O, app_nil_r.
    + rewrite firstn_skipn. unfold path_from_target, q.
      apply crate_of_replace in Hc. now subst c.
  - exfalso. apply str_find_none in F. apply F. destruct Oc as (x & y & K & _). exists x, y; exact K.
Qed.

Lemma dir_agreement td id k krate c target rest :
  crate_of krate c ->
  ~ occurs (lit "_fuzz__") (c ++ lit "::" ++ target ++ lit "_fuzz_") ->
  dir_from_args_type td id k (args_type_name c target rest) = dir_from_target td id k krate target.
Proof.
  intros Hc H. unfold dir_from_args_type, dir_from_target.
  rewrite (agreement krate c target rest Hc H). reflexivity.
Qed.

(** The normalised form of a data directory. *)
Definition kind_prefix (td : path) (k : kind) : path :=
  match k with Output => td ++ [lit "afl"] | _ => td end.
Definition kind_name (k : kind) : str :=
  match k with
  | ImplGenericArgs => lit "impl_generic_args"
  | GenericArgs => lit "generic_args"
  | Corpus => lit "corpus"
  | Output => lit "output"
  end.

Lemma dir_from_target_eq td id k krate target :
  dir_from_target td id k krate target
  = Ret (kind_prefix td k ++ [path_segment id (kind_name k); path_from_target krate target]).
Proof.
  unfold dir_from_target, kind_directory, target_directory, pjoin.
  destruct k; simpl; rewrite <- ?app_assoc; reflexivity.
Qed.

Lemma path_segment_inj id1 k1 id2 k2 :
  path_segment id1 (kind_name k1) = path_segment id2 (kind_name k2) -> id1 = id2 /\ k1 = k2.
Proof.
  unfold path_segment. intros H.
  destruct k1, k2, id1 as [i1|], id2 as [i2|]; simpl in H; try discriminate H;
    try (split; reflexivity);
    repeat (injection H as H; try discriminate H); subst; try (split; reflexivity).
Qed.

Lemma path_from_target_inj c1 t1 c2 t2 :
  ~ In colon c1 -> ~ In colon c2 ->
  path_from_target c1 t1 = path_from_target c2 t2 ->
  replace_char dash underscore c1 = replace_char dash underscore c2 /\ t1 = t2.
Proof.
  intros H1 H2. unfold path_from_target.
  assert (K : forall c, ~ In colon c -> ~ In colon (replace_char dash underscore c)).
  { intros c Hc Hin. apply in_map_iff in Hin as (x & Hx & Hin).
    destruct (ascii_dec x dash); [discriminate|]. subst; auto. }
  apply K in H1, H2. revert H1 H2.
  generalize (replace_char dash underscore c1) as a, (replace_char dash underscore c2) as b.
  induction a as [|x a IH]; intros b H1 H2 E.
  - destruct b as [|y b]; simpl in E.
    + injection E as E. auto.
    + injection E as Ey E. exfalso. apply H2. left. symmetry. exact Ey.
  - destruct b as [|y b]; simpl in E.
    + injection E as Ex E. exfalso. apply H1. left. exact Ex.
    + injection E as -> E. destruct (IH b) as [-> ->]; auto.
      * intros K1; apply H1; right; exact K1.
      * intros K1; apply H2; right; exact K1.
Qed.

Lemma app_inv_head_len {A} (a b c d : list A) :
  List.length a = List.length b -> a ++ c = b ++ d -> a = b /\ c = d.
Proof.
  revert b; induction a as [|x a IH]; intros [|y b] L E; simpl in *; try discriminate; auto.
  injection E as -> E. injection L as L. destruct (IH b L E) as [-> ->]. auto.
Qed.

Lemma afl_segment id k : lit "afl" <> path_segment id (kind_name k).
Proof. unfold path_segment. destruct k; discriminate. Qed.

Lemma dirs_disjoint td id1 k1 c1 t1 id2 k2 c2 t2 d1 d2 p :
  ~ In colon c1 -> ~ In colon c2 ->
  dir_from_target td id1 k1 c1 t1 = Ret d1 -> dir_from_target td id2 k2 c2 t2 = Ret d2 ->
  under d1 p -> under d2 p ->
  id1 = id2 /\ k1 = k2 /\ replace_char dash underscore c1 = replace_char dash underscore c2 /\ t1 = t2.
Proof.
  intros H1 H2. rewrite !dir_from_target_eq. intros [= <-] [= <-] (q1 & ->) (q2 & E).
  rewrite <- !app_assoc in E.
  destruct (app_inv_head_len (kind_prefix td k1) (kind_prefix td k2)
              ([path_segment id1 (kind_name k1); path_from_target c1 t1] ++ q1)
              ([path_segment id2 (kind_name k2); path_from_target c2 t2] ++ q2)) as [E1 E2].
  - (* prefixes have equal length: otherwise "afl" would be a segment *)
    destruct k1, k2; simpl in *; try reflexivity; exfalso;
      rewrite <- ?app_assoc in E; apply app_inv_head in E; simpl in E; injection E as E _;
      first [ eapply (afl_segment id2); symmetry; eassumption
            | eapply (afl_segment id1); eassumption
            | discriminate ].
  - exact E.
  - simpl in E2. injection E2 as S P _. apply path_segment_inj in S as [-> ->].
    apply path_from_target_inj in P as [-> ->]; auto.
Qed.

Lemma output_subdir_under td id sub krate target d s :
  dir_from_target td id Output krate target = Ret d ->
  output_subdir td id sub krate target = Ret s ->
  under d s /\ s = d ++ [lit "default"; sub].
Proof.
  unfold output_subdir. intros ->. simpl. intros [= <-]. unfold pjoin, under.
  rewrite <- app_assoc. simpl. eauto.
Qed.

Lemma maybe_id_spec e in_test :
  maybe_id e in_test =
  match e (lit "TEST_FUZZ_ID"), in_test with
  | Some v, Some n => Some (if valid_utf8 v then v else thread_id n)
  | Some v, None => if valid_utf8 v then Some v else None
  | None, Some n => Some (thread_id n)
  | None, None => None
  end.
Proof.
  unfold maybe_id, var. destruct (e (lit "TEST_FUZZ_ID")) as [v|]; [destruct (valid_utf8 v)|];
    destruct in_test; reflexivity.
Qed.
