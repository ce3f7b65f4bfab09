(** C69, C71, C75-C77: caches, the coverage environment, the version of cargo-afl,
    manifest paths, and the build command. *)
From Coq Require Import String List Ascii Bool Arith NArith Lia.
From Verif Require Import Base Utf8 Lossy Env Dirs Opts Targets Semver Meta FuzzCmd Build.
Import ListNotations.
Local Open Scope nat_scope.

(** ** C69 *)

(** Whatever the later runs' options are, all runs of a process use the metadata,
    target directory and environment of the first run. *)
Theorem C69_first_run_wins :
  forall (q : cargo) (o : opts) (os : list opts) (l : list (mdata * path * list (str * str))),
    prepare_all q no_caches (o :: os) = Ret l ->
    exists md td env,
      own_metadata q o = Ret md /\ q_here q = true /\ own_target_directory (q_td q) o = Ret td /\
      own_llvm_envs (mt_dir md) td (q_env q) o = Ret env /\
      l = repeat (md, td, env) (S (List.length os)).
Proof.
  intros q o os l E. cbn [prepare_all] in E. unfold prepare in E. cbn [no_caches c_md c_td c_llvm get_or_init] in E.
  destruct (own_metadata q o) as [md|e|]; cbn [bind] in E; try discriminate.
  unfold asked_target_directory in E. destruct (q_here q); [|discriminate E].
  destruct (own_target_directory (q_td q) o) as [td|e|]; cbn [bind] in E; try discriminate.
  destruct (own_llvm_envs (mt_dir md) td (q_env q) o) as [env|e|] eqn:L; cbn [bind fst snd] in E; try discriminate.
  exists md, td, env. split; [reflexivity|]. split; [reflexivity|]. split; [reflexivity|]. split; [exact L|].
  assert (R : forall os, prepare_all q {| c_llvm := Some env; c_td := Some td; c_md := Some md |} os
                    = Ret (repeat (md, td, env) (List.length os))).
  { clear. induction os as [|o os IH]; [reflexivity|]. cbn [prepare_all]. rewrite prepare_cached. cbn [bind fst snd].
    rewrite IH. reflexivity. }
  rewrite R in E. cbn [bind] in E. injection E as <-. reflexivity.
Qed.
Print Assumptions C69_first_run_wins.

(** A single run uses its own options, and only asking cargo for metadata or for the
    coverage environment can fail. *)
Theorem C69_single_run_own :
  forall (q : cargo) (o : opts) md env,
    let td := q_td q ++ (if is_some (o_coverage o) then [lit "coverage"] else [])
                     ++ (if include_fuzzing_instrumentation o then [lit "afl"] else []) in
    q_md q (o_no_default_features o) (o_features o ++ [lit "test-fuzz/__persistent"]) (o_manifest_path o) = Some md ->
    q_here q = true -> own_llvm_envs (mt_dir md) td (q_env q) o = Ret env ->
    prepare_all q no_caches [o] = Ret [(md, td, env)].
Proof.
  intros q o md env td M0 H L. cbn [prepare_all].
  assert (M : own_metadata q o = Ret md) by (unfold own_metadata; now rewrite M0).
  rewrite (prepare_own q o md td env M H (own_target_directory_eq _ _) L). reflexivity.
Qed.
Print Assumptions C69_single_run_own.

Definition set_list (b : bool) : opts :=
  {| o_backtrace := false; o_consolidate := false; o_consolidate_all := false; o_coverage := None;
     o_cpus := None; o_display := None; o_exact := false; o_exit_code := false; o_list := b;
     o_max_total_time := None; o_no_run := false; o_no_ui := false; o_persistent := false;
     o_pretty := false; o_replay := None; o_reset := false; o_reset_all := false; o_resume := false;
     o_run_until_crash := false; o_slice := 1200; o_timeout := None;
     o_features := []; o_manifest_path := None; o_no_default_features := false; o_package := None;
     o_release := false; o_test := None; o_verbose := false; o_ztarget := None; o_zzargs := [] |}.

Definition ex_cargo : cargo := {|
  q_md := fun _ _ _ => Some {| mt_dir := [lit "ws"; lit "target"]; mt_md := {| md_packages := []; md_resolve := None |} |};
  q_td := [lit "ws"; lit "target"]; q_here := true;
  q_env := Some (lit "LLVM_PROFILE_FILE='/ws/target/x-%p.profraw'") |}.

(** So a fuzzing run after a listing run of the same process builds the instrumented
    program into the directory of ordinary builds; alone it would not. *)
Theorem C69_stale_directory_refuted :
  exists (q : cargo) (o1 o2 : opts) md1 td1 env1 md2 td2 env2 td,
    prepare_all q no_caches [o1; o2] = Ret [(md1, td1, env1); (md2, td2, env2)] /\
    own_target_directory (q_td q) o2 = Ret td /\ td2 <> td /\
    include_fuzzing_instrumentation o2 = true /\
    build_args o2 td2 false = [lit "afl"; lit "test"; lit "--no-run"; lit "--target-dir"; lit "/ws/target"; lit "--message-format=json"].
Proof.
  exists ex_cargo, (set_list true), (set_list false). do 7 eexists.
  split; [vm_compute; reflexivity|]. split; [vm_compute; reflexivity|]. split; [discriminate|].
  split; vm_compute; reflexivity.
Qed.
Print Assumptions C69_stale_directory_refuted.

Example C69_example :
  exists md, prepare_all ex_cargo no_caches [set_list true; set_list false; set_list true]
             = Ret (repeat (md, [lit "ws"; lit "target"], []) 3).
Proof. eexists. vm_compute. reflexivity. Qed.

(** ** C71 *)

(** Every line [key=value] becomes one variable, in order, with the quotes around the
    value removed and then rebased. *)
Theorem C71_every_variable :
  forall (md_td td : path) (o : opts) (kvs : list (str * nat * str * nat)),
    o_coverage o <> None ->
    let line (x : str * nat * str * nat) := let '(k, a, w, b) := x in k ++ lit "=" ++ repeat quote a ++ w ++ repeat quote b in
    (forall k a w b, In (k, a, w, b) kvs ->
       ~ In "="%char k /\ ~ In LF (line (k, a, w, b)) /\ (forall t, line (k, a, w, b) <> t ++ [CR]) /\
       (forall t, w <> quote :: t) /\ (forall t, w <> t ++ [quote])) ->
    let out := List.concat (map (fun x => line x ++ [LF]) kvs) in
    valid_utf8 out = true ->
    own_llvm_envs md_td td (Some out) o
    = Ret (map (fun x => let '(k, a, w, b) := x in (k, replace_target_dir md_td td w)) kvs).
Proof.
  intros md_td td o kvs C line H out V. unfold own_llvm_envs. destruct (o_coverage o) as [c|]; [|contradiction].
  cbn [is_some negb]. rewrite V. clear C V.
  assert (L : lines out = map line kvs).
  { unfold out. transitivity (lines (render (map (fun x => (line x, false)) kvs) [])).
    - f_equal. unfold render. rewrite map_map, app_nil_r. reflexivity.
    - rewrite lines_render.
      + unfold all_lines. rewrite map_map, app_nil_r. reflexivity.
      + apply Forall_forall. intros l I. apply in_map_iff in I as ([[[k a] w] b] & <- & I).
        destruct (H k a w b I) as (_ & N & R & _). split; [exact N|]. intros _. exact R.
      + intros []. }
  rewrite L. clear L out. induction kvs as [|[[[k a] w] b] kvs IH]; [reflexivity|]. cbn [map mapM].
  destruct (H k a w b (or_introl eq_refl)) as (N & _ & _ & Q1 & Q2).
  unfold env_of_line at 1. change (line (k, a, w, b)) with (k ++ "="%char :: repeat quote a ++ w ++ repeat quote b).
  rewrite split_once_spec by exact N. rewrite trim_quotes_spec by assumption. cbn [bind].
  rewrite IH; [reflexivity|]. intros; apply H; now right.
Qed.
Print Assumptions C71_every_variable.

(** A value lying under the workspace's target directory is moved to the same place
    under the other one. *)
Theorem C71_inside :
  forall (md_td td rest : path),
    Forall component_ok md_td -> Forall component_ok rest -> rest <> [] ->
    replace_target_dir md_td td (path_text (md_td ++ rest)) = path_text (td ++ rest).
Proof.
  intros md_td td rest F1 F2 N. unfold replace_target_dir.
  assert (C : components (path_text (md_td ++ rest)) = md_td ++ rest) by (apply components_path_text, Forall_app; auto).
  destruct (path_text (md_td ++ rest)) as [|c s] eqn:E.
  - exfalso. destruct md_td as [|x md_td]; [destruct rest as [|x rest]; [contradiction|]|]; discriminate.
  - assert (c = slash).
    { destruct (md_td ++ rest) as [|x p]; [discriminate|]. rewrite path_text_cons in E. congruence. }
    subst c. destruct (ascii_dec slash slash); [|contradiction]. rewrite C.
    rewrite (proj2 (strip_components_spec md_td (md_td ++ rest) rest) eq_refl).
    destruct rest; [contradiction|reflexivity].
Qed.
Print Assumptions C71_inside.

Lemma components_slash s : components (s ++ lit "/") = components s.
Proof.
  assert (G : split_slash (s ++ lit "/") = split_slash s ++ [[]] /\ split_slash s <> []).
  { induction s as [|c s (IH & N)]; [split; [reflexivity|discriminate]|]. cbn [app split_slash]. rewrite IH.
    destruct (ascii_dec c slash); [split; [reflexivity|discriminate]|].
    destruct (split_slash s) as [|l ls]; [contradiction|]. split; [reflexivity|discriminate]. }
  unfold components. destruct G as (-> & _). rewrite filter_app. cbn [filter]. apply app_nil_r.
Qed.

(** The target directory itself, written with or without a slash at the end, becomes the
    other one with a slash at the end. *)
Theorem C71_itself :
  forall (md_td td : path),
    Forall component_ok md_td -> md_td <> [] ->
    replace_target_dir md_td td (path_text md_td) = path_text td ++ lit "/" /\
    replace_target_dir md_td td (path_text md_td ++ lit "/") = path_text td ++ lit "/".
Proof.
  intros md_td td F N.
  assert (G : forall v, components v = md_td -> (exists t, v = slash :: t) -> replace_target_dir md_td td v = path_text td ++ lit "/").
  { intros v C (t & ->). unfold replace_target_dir. destruct (ascii_dec slash slash); [|contradiction]. rewrite C.
    rewrite (proj2 (strip_components_spec md_td md_td []) ltac:(now rewrite app_nil_r)). reflexivity. }
  assert (A : exists t, path_text md_td = slash :: t).
  { destruct md_td as [|x p]; [contradiction|]. rewrite path_text_cons. eexists. reflexivity. }
  split; apply G.
  - now apply components_path_text.
  - exact A.
  - rewrite components_slash. now apply components_path_text.
  - destruct A as (t & ->). eexists. reflexivity.
Qed.
Print Assumptions C71_itself.

(** Any other value is unchanged: relative texts and paths elsewhere. *)
Theorem C71_outside :
  forall (md_td td : path) (v : str),
    (~ exists t, v = slash :: t) \/
    (exists p, Forall component_ok p /\ v = path_text p /\ ~ exists rest, p = md_td ++ rest) ->
    replace_target_dir md_td td v = v.
Proof.
  intros md_td td v H. unfold replace_target_dir. destruct v as [|c v]; [reflexivity|].
  destruct (ascii_dec c slash) as [->|]; [|reflexivity].
  destruct H as [H|(p & F & E & N)]; [exfalso; apply H; now exists v|].
  rewrite E, components_path_text by exact F.
  destruct (strip_components md_td p) as [r|] eqn:S0; [|reflexivity].
  apply strip_components_spec in S0. exfalso. apply N. now exists r.
Qed.
Print Assumptions C71_outside.

(** A line without [=] is a crash; so is output that is not UTF-8; nothing is asked
    without --coverage. *)
Theorem C71_crashes :
  forall (md_td td : path) (o : opts) (out : bytes),
    (o_coverage o <> None -> (exists l, In l (lines out) /\ ~ In "="%char l) \/ valid_utf8 out = false ->
       own_llvm_envs md_td td (Some out) o = Panic) /\
    (o_coverage o = None -> own_llvm_envs md_td td (Some out) o = Ret []).
Proof.
  intros md_td td o out. unfold own_llvm_envs. split; [|intros ->; reflexivity].
  intros C H. destruct (o_coverage o) as [c|]; [|contradiction]. cbn [is_some negb].
  destruct (valid_utf8 out); [|reflexivity]. destruct H as [(l & I & N)|H]; [|discriminate].
  induction (lines out) as [|l' ls IH]; [destruct I|]. cbn [mapM].
  unfold env_of_line at 1. destruct (split_once "="%char l') as [[k v]|] eqn:E; [|reflexivity].
  cbn [bind]. destruct I as [->|I]; [rewrite split_once_none in E by exact N; discriminate|].
  rewrite (IH I). reflexivity.
Qed.
Print Assumptions C71_crashes.

(** The quoting of a POSIX shell: a quote inside is written ['\'']. *)
Fixpoint sh_inner (s : str) : str :=
  match s with
  | [] => []
  | c :: s' => if ascii_dec c quote then lit "'\''" ++ sh_inner s' else c :: sh_inner s'
  end.
Definition sh_quote (s : str) : str := quote :: sh_inner s ++ [quote].

(** A value that itself contains a quote is not passed on as it was. *)
Theorem C71_quotes_inside_refuted :
  exists (md_td td : path) (o : opts) (v w : str),
    o_coverage o <> None /\
    own_llvm_envs md_td td (Some (lit "A=" ++ sh_quote v ++ [LF])) o = Ret [(lit "A", w)] /\
    v <> w /\ replace_target_dir md_td td v = v.
Proof.
  exists [lit "t"], [lit "t"; lit "coverage"],
    {| o_backtrace := false; o_consolidate := false; o_consolidate_all := false; o_coverage := Some Corpus_;
       o_cpus := None; o_display := None; o_exact := false; o_exit_code := false; o_list := false;
       o_max_total_time := None; o_no_run := false; o_no_ui := false; o_persistent := false;
       o_pretty := false; o_replay := None; o_reset := false; o_reset_all := false; o_resume := false;
       o_run_until_crash := false; o_slice := 0%N; o_timeout := None;
       o_features := []; o_manifest_path := None; o_no_default_features := false; o_package := None;
       o_release := false; o_test := None; o_verbose := false; o_ztarget := None; o_zzargs := [] |},
    (lit "/bob's/x").
  eexists. split; [discriminate|]. split; [vm_compute; reflexivity|]. split; [discriminate|vm_compute; reflexivity].
Qed.
Print Assumptions C71_quotes_inside_refuted.

Example C71_example :
  replace_target_dir [lit "ws"; lit "target"] [lit "ws"; lit "target"; lit "coverage"] (lit "/ws/target/x-%p.profraw")
    = lit "/ws/target/coverage/x-%p.profraw" /\
  replace_target_dir [lit "ws"; lit "target"] [lit "ws"; lit "target"; lit "coverage"] (lit "/ws/target")
    = lit "/ws/target/coverage/" /\
  replace_target_dir [lit "ws"; lit "target"] [lit "ws"; lit "target"; lit "coverage"] (lit "/ws/targets/x")
    = lit "/ws/targets/x" /\
  replace_target_dir [lit "ws"; lit "target"] [lit "ws"; lit "target"; lit "coverage"] (lit "-C instrument-coverage")
    = lit "-C instrument-coverage".
Proof. vm_compute. auto. Qed.

(** ** C75 *)

(** The version is the first word after the prefix; anything else is refused; and a
    refusal ends the process with a panic. *)
Theorem C75_version_exact :
  forall (parse : str -> option version) (out : bytes) (v : version),
    cached_cargo_afl_version parse (Some out) = Ret v <->
    exists a w b,
      lossy out = lit "cargo-afl " ++ a ++ w ++ b /\
      (forall c, In c a -> is_ascii_ws c = true) /\
      w <> [] /\ (forall c, In c w -> is_ascii_ws c = false) /\
      (b = [] \/ exists c b', b = c :: b' /\ is_ascii_ws c = true) /\
      parse w = Some v.
Proof.
  intros parse out v. unfold cached_cargo_afl_version, cargo_afl_version. split.
  - intros H. destruct (strip_prefix (lit "cargo-afl ") (lossy out)) as [s|] eqn:P; [|discriminate].
    apply strip_prefix_spec in P. destruct (first_word s) as [w|] eqn:W; [|discriminate].
    apply first_word_spec in W as (N & F & a & b & -> & A & B).
    destruct (parse w) as [v'|] eqn:Q; [|discriminate]. injection H as <-.
    exists a, w, b. auto 10.
  - intros (a & w & b & E & A & N & F & B & Q).
    rewrite (proj2 (strip_prefix_spec _ _ (a ++ w ++ b)) E).
    rewrite (proj2 (first_word_spec (a ++ w ++ b) w)); [now rewrite Q|].
    split; [exact N|]. split; [exact F|]. exists a, b. auto.
Qed.
Print Assumptions C75_version_exact.

(** Without cargo-afl the process panics, even with --exit-code (so it does not exit 2). *)
Theorem C75_missing_is_a_panic :
  forall parse (out : option bytes),
    (forall v, cached_cargo_afl_version parse out <> Ret v) -> cached_cargo_afl_version parse out = Panic.
Proof.
  intros parse out H. unfold cached_cargo_afl_version in *. destruct (cargo_afl_version parse out) as [v|e|]; try reflexivity.
  exfalso. now apply (H v).
Qed.
Print Assumptions C75_missing_is_a_panic.

(** C75: output that names no version is answered with the advice to install cargo-afl. *)
Theorem C75_advice :
  forall (parse : str -> option version) (out : bytes),
    (forall a w b, lossy out = lit "cargo-afl " ++ a ++ w ++ b -> (forall c, In c a -> is_ascii_ws c = true) -> w = [] \/ exists c, In c w /\ is_ascii_ws c = true) ->
    cargo_afl_version parse (Some out) =
    Err (lit "Could not determine `cargo-afl` version. Is it installed? Try `cargo install cargo-afl`.").
Proof.
  intros parse out H. unfold cargo_afl_version. destruct (strip_prefix (lit "cargo-afl ") (lossy out)) as [s|] eqn:P; [|reflexivity].
  apply strip_prefix_spec in P. destruct (first_word s) as [w|] eqn:W; [|reflexivity]. exfalso.
  apply first_word_spec in W as (N & F & a & b & -> & A & B). destruct (H a w b P A) as [K|(c & I & K)]; [contradiction|].
  rewrite (F c I) in K. discriminate K.
Qed.
Print Assumptions C75_advice.

Example C75_example :
  let parse w := if str_eqb w (lit "0.15.21") then Some (mkversion 0 15 21 []) else None in
  cached_cargo_afl_version parse (Some (lit "cargo-afl 0.15.21 " ++ [LF])) = Ret (mkversion 0 15 21 []) /\
  cached_cargo_afl_version parse (Some (lit "error: no such command: `afl`" ++ [LF])) = Panic /\
  cached_cargo_afl_version parse (Some (lit "cargo-afl " ++ [LF])) = Panic.
Proof. vm_compute. auto. Qed.

(** ** C77: the build command *)

(** Instrumentation and target directory: [afl] is the subcommand exactly with fuzzing
    instrumentation, and a target directory is given exactly with some instrumentation. *)
Theorem C77_instrumentation :
  forall (o : opts) (td0 td : path) (terminal : bool),
    own_target_directory td0 o = Ret td ->
    (exists rest, build_args o td terminal = (if include_fuzzing_instrumentation o then [lit "afl"; lit "test"] else [lit "test"])
                                               ++ lit "--no-run" :: rest) /\
    (include_fuzzing_instrumentation o = true -> td = td0 ++ [lit "afl"]) /\
    (o_coverage o <> None -> td = td0 ++ [lit "coverage"]).
Proof.
  intros o td0 td terminal E. rewrite own_target_directory_eq in E. injection E as <-. split.
  - unfold build_args. destruct (include_fuzzing_instrumentation o); cbn [app]; eexists; reflexivity.
  - pose proof (never_both o) as N. unfold include_coverage_instrumentation in N. split.
    + intros F. rewrite F in *. destruct (is_some (o_coverage o)); [discriminate|reflexivity].
    + intros C. destruct (o_coverage o) as [c|]; [|contradiction]. cbn [is_some andb] in *. rewrite N. reflexivity.
Qed.
Print Assumptions C77_instrumentation.

(** C77: what the build writes to stderr is dropped exactly if entries are to be shown and
    --verbose is not given. *)
Theorem C77_stderr :
  forall o : opts,
    silence_stderr o = true <-> (o_coverage o <> None \/ o_display o <> None \/ o_replay o <> None) /\ o_verbose o = false.
Proof.
  intros o. unfold silence_stderr. rewrite andb_true_iff, negb_true_iff, !orb_true_iff.
  destruct (o_coverage o), (o_display o), (o_replay o); cbn [is_some]; intuition congruence.
Qed.
Print Assumptions C77_stderr.

(** Every option that selects what is built is passed on: the arguments, after the
    subcommand, are exactly these groups in this order. *)
Theorem C77_arguments_exact :
  forall (o : opts) (td : path) (terminal : bool),
    let given (flag : str) (v : option str) := match v with Some x => [flag; x] | None => [] end in
    let when_ (b : bool) (l : list str) := if b then l else [] in
    exists td_args,
      (td_args = [] <-> o_coverage o = None /\ include_fuzzing_instrumentation o = false) /\
      (td_args = [] \/ td_args = [lit "--target-dir"; lossy (path_text td)]) /\
      build_args o td terminal =
      when_ (include_fuzzing_instrumentation o) [lit "afl"] ++ [lit "test"; lit "--no-run"]
      ++ when_ (o_no_default_features o) [lit "--no-default-features"]
      ++ List.concat (map (fun f => [lit "--features"; f]) (o_features o))
      ++ when_ (o_release o) [lit "--release"]
      ++ td_args
      ++ given (lit "--manifest-path") (o_manifest_path o)
      ++ given (lit "--package") (o_package o)
      ++ when_ (o_persistent o) [lit "--features"; lit "test-fuzz/__persistent"]
      ++ given (lit "--test") (o_test o)
      ++ [if terminal then lit "--message-format=json-diagnostic-rendered-ansi" else lit "--message-format=json"].
Proof.
  intros o td terminal given when_.
  exists (if is_some (o_coverage o) || include_fuzzing_instrumentation o then [lit "--target-dir"; lossy (path_text td)] else []).
  split; [|split].
  - destruct (o_coverage o) as [c|], (include_fuzzing_instrumentation o); cbn [is_some orb]; split; try discriminate; auto;
      intros [? ?]; discriminate.
  - destruct (is_some (o_coverage o) || include_fuzzing_instrumentation o); auto.
  - unfold build_args, include_coverage_instrumentation, flag_opt, given, when_. rewrite flat_map_concat_map. reflexivity.
Qed.
Print Assumptions C77_arguments_exact.

(** ** C76: --manifest-path *)

(** [ws dir manifest]: the target directory of the workspace of a manifest, or of a
    directory.  The tool's data directories (internal/src/dirs.rs:113-117) are those
    of [TEST_FUZZ_MANIFEST_PATH] or of the current directory; the targets, run by
    [cargo test --manifest-path], record below the workspace of their package. *)
Definition data_root (ws : path -> option str -> path) (e : env) (cwd : path) : path :=
  ws cwd (var e (lit "TEST_FUZZ_MANIFEST_PATH")).

(** The tool reads where the tests wrote whenever the current directory belongs to the
    same workspace. *)
Theorem C76_same_workspace :
  forall ws e_tool e_test cwd pkg_dir,
    var e_tool (lit "TEST_FUZZ_MANIFEST_PATH") = var e_test (lit "TEST_FUZZ_MANIFEST_PATH") ->
    (forall mp, ws cwd mp = ws pkg_dir mp) ->
    data_root ws e_tool cwd = data_root ws e_test pkg_dir.
Proof. intros ws e1 e2 cwd pd E H. unfold data_root. rewrite E. apply H. Qed.
Print Assumptions C76_same_workspace.

(** --manifest-path selects the program that is built but not the directories: given
    the manifest of another workspace, the tool looks in the wrong place. *)
Theorem C76_manifest_path_refuted :
  exists (ws : path -> option str -> path) (e : env) (cwd pkg_dir : path) (o : opts),
    o_manifest_path o = Some (lit "/other/Cargo.toml") /\
    ws cwd (o_manifest_path o) = ws pkg_dir None /\
    In (lit "/other/Cargo.toml") (build_args o [] false) /\
    data_root ws e cwd <> data_root ws e pkg_dir.
Proof.
  exists (fun d m => match m with Some _ => [lit "other"; lit "target"] | None => d ++ [lit "target"] end),
    (fun _ => None), [lit "here"], [lit "other"],
    {| o_backtrace := false; o_consolidate := false; o_consolidate_all := false; o_coverage := None;
       o_cpus := None; o_display := None; o_exact := false; o_exit_code := false; o_list := false;
       o_max_total_time := None; o_no_run := false; o_no_ui := false; o_persistent := false;
       o_pretty := false; o_replay := None; o_reset := false; o_reset_all := false; o_resume := false;
       o_run_until_crash := false; o_slice := 0%N; o_timeout := None;
       o_features := []; o_manifest_path := Some (lit "/other/Cargo.toml"); o_no_default_features := false; o_package := None;
       o_release := false; o_test := None; o_verbose := false; o_ztarget := None; o_zzargs := [] |}.
  split; [reflexivity|]. split; [reflexivity|]. split; [vm_compute; tauto|]. vm_compute. discriminate.
Qed.
Print Assumptions C76_manifest_path_refuted.

Example C76_example :
  data_root (fun d m => match m with Some p => [p] | None => d ++ [lit "target"] end)
    (env_set (fun _ => None) (lit "TEST_FUZZ_MANIFEST_PATH") (Some (lit "M"))) [lit "x"] = [lit "M"].
Proof. vm_compute. reflexivity. Qed.

Example C77_example :
  build_args {| o_backtrace := false; o_consolidate := false; o_consolidate_all := false; o_coverage := None;
       o_cpus := None; o_display := Some CorpusInstrumented; o_exact := false; o_exit_code := false; o_list := false;
       o_max_total_time := None; o_no_run := false; o_no_ui := false; o_persistent := true;
       o_pretty := false; o_replay := None; o_reset := false; o_reset_all := false; o_resume := false;
       o_run_until_crash := false; o_slice := 0%N; o_timeout := None;
       o_features := [lit "f"; lit "g"]; o_manifest_path := None; o_no_default_features := true; o_package := Some (lit "p");
       o_release := true; o_test := None; o_verbose := false; o_ztarget := None; o_zzargs := [] |} [lit "t"; lit "afl"] true
  = map lit ["afl"; "test"; "--no-run"; "--no-default-features"; "--features"; "f"; "--features"; "g"; "--release";
             "--target-dir"; "/t/afl"; "--package"; "p"; "--features"; "test-fuzz/__persistent";
             "--message-format=json-diagnostic-rendered-ansi"]%string.
Proof. vm_compute. reflexivity. Qed.
