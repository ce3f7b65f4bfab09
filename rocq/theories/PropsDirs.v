(** Properties C07-C10: directories of fuzz targets. *)
From Coq Require Import List Ascii String Bool.
From Verif Require Import Base Utf8 Env Dirs DirsText.
Import ListNotations.

(** C07: recording (by type name) and reading (by target name) use the same
    directory, unless [_fuzz__] occurs in [crate::target_fuzz_]. *)
Theorem C07_directories_agree :
  forall (td : path) (id : option str) (k : kind) (krate c target rest : str),
    crate_of krate c ->
    ~ occurs (lit "_fuzz__") (c ++ lit "::" ++ target ++ lit "_fuzz_") ->
    dir_from_args_type td id k (args_type_name c target rest) = dir_from_target td id k krate target.
Proof. exact dir_agreement. Qed.
Print Assumptions C07_directories_agree.

Example C07_example :
  crate_of (lit "my-crate") (lit "my_crate") /\
  ~ occurs (lit "_fuzz__") (lit "my_crate" ++ lit "::" ++ lit "m::parse" ++ lit "_fuzz_") /\
  dir_from_args_type [lit "w"; lit "target"] None Corpus
    (lit "my_crate::m::parse_fuzz__::write_args::Args<u8>")
  = Ret [lit "w"; lit "target"; lit "corpus"; lit "my_crate::m::parse"].
Proof.
  split; [|split; [|reflexivity]].
  - repeat constructor.
  - intros H. apply contains_spec in H. discriminate H.
Qed.

(** C08: otherwise the recording path is a strict prefix of the one read. *)
Theorem C08_directories_disagree :
  forall (krate c target rest : str),
    crate_of krate c ->
    occurs (lit "_fuzz__") (c ++ lit "::" ++ target ++ lit "_fuzz_") ->
    exists p s, s <> [] /\ path_from_args_type (args_type_name c target rest) = Ret p /\
                path_from_target krate target = p ++ s.
Proof. exact disagreement. Qed.
Print Assumptions C08_directories_disagree.

(** C08: agreement for all target names is refuted: target [a_fuzz_] records into
    the directory read for target [a]. *)
Theorem C08_directories_agree_refuted :
  exists td id k krate c target rest,
    crate_of krate c /\
    dir_from_args_type td id k (args_type_name c target rest) <> dir_from_target td id k krate target /\
    dir_from_args_type td id k (args_type_name c target rest) = dir_from_target td id k krate (lit "a").
Proof.
  exists [], None, Corpus, (lit "c"), (lit "c"), (lit "a_fuzz_"), (lit "::Args").
  split; [|split].
  - repeat constructor.
  - discriminate.
  - reflexivity.
Qed.
Print Assumptions C08_directories_agree_refuted.

Example C08_example :
  path_from_args_type (lit "c::x_fuzz__y_fuzz__::Args") = Ret (lit "c::x") /\
  path_from_target (lit "c") (lit "x_fuzz__y") = lit "c::x_fuzz__y".
Proof. split; reflexivity. Qed.

(** C09: if some path lies in a data directory of one target and in one of another,
    then id, kind, (normalised) crate and target are the same.  The directories are
    the places of the program's texts; ids have no slashes, or only tame ones (see
    C103). *)
Theorem C09_directories_disjoint :
  forall td id1 k1 c1 t1 id2 k2 c2 t2 p,
    Forall plain td ->
    (forall i, id1 = Some i -> tame i) -> (forall i, id2 = Some i -> tame i) ->
    (forall x, In x [c1; t1; c2; t2] -> ~ In "/"%char x) ->
    ~ In ":"%char c1 -> ~ In ":"%char c2 ->
    under (place (target_dir_text (path_text td) id1 k1 c1 t1)) p ->
    under (place (target_dir_text (path_text td) id2 k2 c2 t2)) p ->
    id1 = id2 /\ k1 = k2 /\
    replace_char "-"%char "_"%char c1 = replace_char "-"%char "_"%char c2 /\ t1 = t2.
Proof. exact places_disjoint. Qed.
Print Assumptions C09_directories_disjoint.

(** C09: crashes, hangs and queue are inside the output directory. *)
Theorem C09_output_subdirectories :
  forall td id sub krate target d s,
    dir_from_target td id Output krate target = Ret d ->
    output_subdir td id sub krate target = Ret s ->
    under d s /\ s = d ++ [lit "default"; sub].
Proof. exact output_subdir_under. Qed.
Print Assumptions C09_output_subdirectories.

(** C09: crates that differ only by dash/underscore share their directories. *)
Theorem C09_crate_names_distinct_refuted :
  exists c1 c2 t, c1 <> c2 /\ forall td id k, dir_from_target td id k c1 t = dir_from_target td id k c2 t.
Proof.
  exists (lit "a-b"), (lit "a_b"), (lit "t"). split; [discriminate|]. intros td id [] ; reflexivity.
Qed.
Print Assumptions C09_crate_names_distinct_refuted.

(** C09: where the data of a target is, spelled out. *)
Theorem C09_layout :
  forall (td : path) (id : option str) (k : kind) (krate target : str),
    dir_from_target td id k krate target =
    Ret (td ++ (match k with Output => [lit "afl"] | _ => [] end)
            ++ [(match k with ImplGenericArgs => lit "impl_generic_args" | GenericArgs => lit "generic_args" | Corpus => lit "corpus" | Output => lit "output" end)
                ++ (match id with Some i => lit "_" ++ i | None => [] end);
                map (fun c => if ascii_dec c "-" then "_"%char else c) krate ++ lit "::" ++ target]).
Proof.
  intros td id k krate target.
  assert (R : replace_char dash underscore krate = map (fun c => if ascii_dec c "-" then "_"%char else c) krate).
  { unfold replace_char. apply map_ext. intros c. unfold dash, underscore. destruct (ascii_dec c "-") as [->|N]; [reflexivity|].
    destruct (Ascii.eqb c "-") eqn:E; [apply Ascii.eqb_eq in E; contradiction|reflexivity]. }
  unfold dir_from_target, path_from_target. rewrite R. destruct k, id; cbn [kind_directory target_directory andb bind]; unfold pjoin, path_segment; rewrite ?app_nil_r, <- ?app_assoc; reflexivity.
Qed.
Print Assumptions C09_layout.

Example C09_example :
  dir_from_target [lit "t"] None Corpus (lit "a") (lit "m::f")
  = Ret [lit "t"; lit "corpus"; lit "a::m::f"] /\
  dir_from_target [lit "t"] (Some (lit "x")) Output (lit "a-b") (lit "f")
  = Ret [lit "t"; lit "afl"; lit "output_x"; lit "a_b::f"].
Proof. split; reflexivity. Qed.

(** C10: data directories with different ids (or with and without id) never
    overlap, whatever the kinds, crates and targets, for ids without slashes. *)
Theorem C10_ids_disjoint :
  forall td id1 k1 c1 t1 id2 k2 c2 t2 p,
    Forall plain td ->
    (forall i, id1 = Some i \/ id2 = Some i -> ~ In "/"%char i) ->
    (forall x, In x [c1; t1; c2; t2] -> ~ In "/"%char x) ->
    ~ In ":"%char c1 -> ~ In ":"%char c2 -> id1 <> id2 ->
    ~ (under (place (target_dir_text (path_text td) id1 k1 c1 t1)) p /\
       under (place (target_dir_text (path_text td) id2 k2 c2 t2)) p).
Proof.
  intros td id1 k1 c1 t1 id2 k2 c2 t2 p F I N C1 C2 D [U1 U2]. apply D.
  apply (places_disjoint td id1 k1 c1 t1 id2 k2 c2 t2 p); auto; intros i E; apply tame_no_slash, I; auto.
Qed.
Print Assumptions C10_ids_disjoint.

(** C10: the id is TEST_FUZZ_ID when it is set and UTF-8, and there is none
    outside the project's own tests otherwise. *)
Theorem C10_id_source :
  forall (e : env) (in_test : option str),
    maybe_id e in_test =
    match e (lit "TEST_FUZZ_ID"), in_test with
    | Some v, Some n => Some (if valid_utf8 v then v else thread_id n)
    | Some v, None => if valid_utf8 v then Some v else None
    | None, Some n => Some (thread_id n)
    | None, None => None
    end.
Proof. exact maybe_id_spec. Qed.
Print Assumptions C10_id_source.

(** C10: the thread's number appears in the id between "ThreadId_" and "_". *)
Theorem C10_thread_id :
  forall digits : str,
    (forall c, In c digits -> c <> "("%char /\ c <> ")"%char) ->
    thread_id digits = lit "ThreadId_" ++ digits ++ lit "_".
Proof.
  intros d H. unfold thread_id.
  assert (Rn : forall a l, (forall c, In c l -> c <> a) -> replace_char a underscore l = l).
  { intros a l N. apply replace_char_id. intros I. exact (N a I eq_refl). }
  assert (Ra : forall a l l', replace_char a underscore (l ++ l') = replace_char a underscore l ++ replace_char a underscore l').
  { intros. unfold replace_char. apply map_app. }
  rewrite !Ra, (Rn "("%char d), (Rn ")"%char d) by (intros c I; now apply H). reflexivity.
Qed.
Print Assumptions C10_thread_id.

Example C10_example :
  thread_id (lit "12") = lit "ThreadId_12_" /\
  path_segment None (lit "corpus") = lit "corpus" /\
  path_segment (Some (lit "z")) (lit "corpus") = lit "corpus_z".
Proof. repeat split. Qed.
