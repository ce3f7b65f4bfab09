(** The options of [cargo test-fuzz] and the environments of the processes it starts. *)
From Coq Require Import List Ascii String Bool Arith NArith Lia.
From Verif Require Import Base Utf8 Env.
Import ListNotations.

(** cargo-test-fuzz/src/lib.rs:73-84 [Object]. *)
Inductive object :=
  | Corpus_ | CorpusInstrumented | Crashes | CrashesInstrumented | GenericArgs_ | Hangs
  | HangsInstrumented | ImplGenericArgs_ | Queue | QueueInstrumented.

(** cargo-test-fuzz/src/lib.rs:87-120 [TestFuzz], all fields.  [u64] fields are
    [N]; where their range matters the statement says so. *)
Record opts := {
  o_backtrace : bool;
  o_consolidate : bool;
  o_consolidate_all : bool;
  o_coverage : option object;
  o_cpus : option nat;
  o_display : option object;
  o_exact : bool;
  o_exit_code : bool;
  o_features : list str;
  o_list : bool;
  o_manifest_path : option str;
  o_max_total_time : option N;
  o_no_default_features : bool;
  o_no_run : bool;
  o_no_ui : bool;
  o_package : option str;
  o_persistent : bool;
  o_pretty : bool;
  o_release : bool;
  o_replay : option object;
  o_reset : bool;
  o_reset_all : bool;
  o_resume : bool;
  o_run_until_crash : bool;
  o_slice : N;
  o_test : option str;
  o_timeout : option N;
  o_verbose : bool;
  o_ztarget : option str;
  o_zzargs : list str;
}.

(** [TestFuzz::default()] (derived). *)
Definition default_opts : opts := {|
  o_backtrace := false; o_consolidate := false; o_consolidate_all := false; o_coverage := None;
  o_cpus := None; o_display := None; o_exact := false; o_exit_code := false; o_list := false;
  o_max_total_time := None; o_no_run := false; o_no_ui := false; o_persistent := false;
  o_pretty := false; o_replay := None; o_reset := false; o_reset_all := false; o_resume := false;
  o_run_until_crash := false; o_slice := 0%N; o_timeout := None;
  o_features := []; o_manifest_path := None; o_no_default_features := false; o_package := None;
  o_release := false; o_test := None; o_verbose := false; o_ztarget := None; o_zzargs := [] |}.

(** [Option::is_some] (std). *)
Definition is_some {A} (o : option A) : bool := match o with Some _ => true | None => false end.

(** cargo-test-fuzz/src/lib.rs:57 [BASE_ENVS]. *)
Definition base_envs : list (bytes * bytes) :=
  [(lit "TEST_FUZZ", lit "1"); (lit "TEST_FUZZ_WRITE", lit "0")].

Definition when {A} (b : bool) (l : list A) : list A := if b then l else [].

(** cargo-test-fuzz/src/lib.rs:879-895, variables for displaying, replaying and coverage. *)
Definition entry_envs (o : opts) : list (bytes * bytes) :=
  base_envs ++ [(lit "AFL_QUIET", lit "1")]
  ++ when (is_some (o_coverage o)) [(lit "TEST_FUZZ_COVERAGE", lit "1")]
  ++ when (is_some (o_display o)) [(lit "TEST_FUZZ_DISPLAY", lit "1")]
  ++ when (is_some (o_replay o)) [(lit "TEST_FUZZ_REPLAY", lit "1")]
  ++ when (o_backtrace o) [(lit "RUST_BACKTRACE", lit "1")]
  ++ when (o_pretty o) [(lit "TEST_FUZZ_PRETTY_PRINT", lit "1")].

(** cargo-test-fuzz/src/lib.rs:1433-1439, variables for fuzzing; [ui] is [config.ui]. *)
Definition fuzz_envs (ui : bool) (o : opts) : list (bytes * bytes) :=
  base_envs ++ when (negb ui) [(lit "AFL_NO_UI", lit "1")]
  ++ when (o_run_until_crash o) [(lit "AFL_BENCH_UNTIL_CRASH", lit "1")].

(** [Command::envs] (std) on the variables of a command: one entry per name, later wins.
    Simplification: entries are not kept in name order (nothing observes it). *)
Fixpoint c_set (l : list (bytes * option bytes)) (k v : bytes) : list (bytes * option bytes) :=
  match l with
  | [] => [(k, Some v)]
  | (k', v') :: l' => if str_dec k' k then (k, Some v) :: l' else (k', v') :: c_set l' k v
  end.
Definition c_set_all (l : list (bytes * option bytes)) (vs : list (bytes * bytes)) :=
  fold_left (fun l kv => c_set l (fst kv) (snd kv)) vs l.

(** cargo-test-fuzz/src/lib.rs:127-142 [TestFuzz::command]; [llvm] is the list
    returned by [llvm_envs] (144-167). *)
Definition opts_command (llvm : list (bytes * bytes)) (program : bytes) (args : list bytes) : command :=
  {| c_program := program; c_args := args; c_envs := c_set_all [] llvm; c_cwd := None |}.

(** cargo-test-fuzz/src/lib.rs:932-936: the environment of a harness started by
    [for_each_entry]; [parent] is the environment of cargo-test-fuzz. *)
Definition entry_harness_env (o : opts) (llvm : list (bytes * bytes)) (program : bytes)
    (parent : list (bytes * bytes)) : env :=
  exec_env (x_env_extend parent (to_exec parent (opts_command llvm program [])) (entry_envs o)) parent.

(** cargo-test-fuzz/src/lib.rs:1477-1478: the environment of the fuzzer started by
    [fuzz_command], which cargo-afl and afl-fuzz pass on to the harness.
    Simplification: variables these add themselves (all named AFL_*, ASAN_OPTIONS
    and the like) are not represented. *)
Definition fuzz_harness_env (ui : bool) (o : opts) (llvm : list (bytes * bytes))
    (parent : list (bytes * bytes)) : env :=
  let c := opts_command llvm (lit "cargo") [lit "afl"; lit "fuzz"] in
  command_env {| c_program := c_program c; c_args := c_args c;
                 c_envs := c_set_all (c_envs c) (fuzz_envs ui o); c_cwd := c_cwd c |}
              (lookup_last parent).

(** * Lemmas *)

Lemma c_set_find l k v k' :
  List.find (fun kv : bytes * option bytes => str_eqb (fst kv) k') (c_set l k v)
  = if str_dec k' k then Some (k', Some v) else List.find (fun kv => str_eqb (fst kv) k') l.
Proof.
  induction l as [|[a b] l IH]; simpl.
  - destruct (str_dec k' k) as [->|n]; [now rewrite str_eqb_refl|].
    destruct (str_eqb k k') eqn:E; [apply str_eqb_eq in E; congruence|reflexivity].
  - destruct (str_dec a k) as [->|n]; simpl.
    + destruct (str_dec k' k) as [->|n]; [now rewrite str_eqb_refl|].
      destruct (str_eqb k k') eqn:E; [apply str_eqb_eq in E; congruence|reflexivity].
    + destruct (str_eqb a k') eqn:E.
      * apply str_eqb_eq in E. subst a. destruct (str_dec k' k); [contradiction|reflexivity].
      * exact IH.
Qed.

Lemma c_set_nodup l k v : NoDup (map fst l) -> NoDup (map fst (c_set l k v)).
Proof.
  assert (I : forall x, In x (map fst (c_set l k v)) -> x = k \/ In x (map fst l)).
  { induction l as [|[a b] l IH]; simpl; intros x H.
    - destruct H as [H|[]]; auto.
    - destruct (str_dec a k) as [->|n]; simpl in H; [tauto|].
      destruct H as [H|H]; [auto|]. apply IH in H. tauto. }
  induction l as [|[a b] l IH]; intros ND; simpl in *.
  - repeat constructor. intros [].
  - inversion ND as [|? ? Hni ND']; subst. destruct (str_dec a k) as [->|n]; simpl.
    + constructor; assumption.
    + assert (I' : forall x, In x (map fst (c_set l k v)) -> x = k \/ In x (map fst l)).
      { clear - n. induction l as [|[a' b'] l IH]; simpl; intros x H.
        - destruct H as [H|[]]; auto.
        - destruct (str_dec a' k) as [->|n']; simpl in H; [tauto|].
          destruct H as [H|H]; [auto|]. apply IH in H. tauto. }
      constructor; [|apply IH; [|exact ND']].
      * intros Hi. apply I' in Hi as [Hi|Hi]; contradiction.
      * exact I'.
Qed.

Lemma c_set_all_nodup vs l : NoDup (map fst l) -> NoDup (map fst (c_set_all l vs)).
Proof.
  revert l; induction vs as [|[k v] vs IH]; intros l ND; simpl; [exact ND|].
  apply IH. apply c_set_nodup. exact ND.
Qed.

Lemma env_extend_ext l e e' : (forall k, e k = e' k) -> forall k, env_extend l e k = env_extend l e' k.
Proof.
  revert e e'; induction l as [|[a b] l IH]; intros e e' H k; simpl; auto.
  apply IH. intros k'. unfold env_set. destruct (str_dec k' a); auto.
Qed.

Lemma c_set_all_env c vs parent k :
  command_env {| c_program := c_program c; c_args := c_args c; c_envs := c_set_all (c_envs c) vs; c_cwd := c_cwd c |} parent k
  = env_extend vs (command_env c parent) k.
Proof.
  destruct c as [p a l d]. simpl. revert l; induction vs as [|[k1 v1] vs IH]; intros l; simpl.
  - reflexivity.
  - etransitivity; [apply (IH (c_set l k1 v1))|].
    apply env_extend_ext. intros k'. unfold command_env, env_set. simpl. rewrite c_set_find.
    destruct (str_dec k' k1); reflexivity.
Qed.

Lemma opts_command_env llvm program args parent k :
  command_env (opts_command llvm program args) parent k = env_extend llvm parent k.
Proof.
  pose proof (c_set_all_env {| c_program := program; c_args := args; c_envs := []; c_cwd := None |} llvm parent k) as H.
  simpl in H. unfold opts_command. rewrite H. apply env_extend_ext. reflexivity.
Qed.

Lemma entry_harness_env_eq o llvm program parent k :
  entry_harness_env o llvm program parent k
  = env_extend (llvm ++ entry_envs o) (lookup_last parent) k.
Proof.
  unfold entry_harness_env. rewrite x_env_extend_env, env_extend_app.
  apply env_extend_ext. intros k'.
  destruct (to_exec_spec parent (opts_command llvm program [])) as (_ & _ & _ & E).
  - apply c_set_all_nodup. constructor.
  - rewrite E. apply opts_command_env.
Qed.

Lemma fuzz_harness_env_eq ui o llvm parent k :
  fuzz_harness_env ui o llvm parent k = env_extend (llvm ++ fuzz_envs ui o) (lookup_last parent) k.
Proof.
  unfold fuzz_harness_env. rewrite c_set_all_env, env_extend_app.
  apply env_extend_ext. intros k'. apply opts_command_env.
Qed.

(** Lookup in the variables of the two kinds of harness. *)
Lemma enabled_ext e e' s : (forall k, e k = e' k) -> enabled e s = enabled e' s.
Proof. intros H. unfold enabled, var. now rewrite H. Qed.

Lemma env_extend_one k' v e k :
  env_extend [(k', v)] e k = if str_eqb k k' then Some v else e k.
Proof.
  simpl. unfold env_set. destruct (str_dec k k') as [->|n]; [now rewrite str_eqb_refl|].
  destruct (str_eqb k k') eqn:E; [apply str_eqb_eq in E; contradiction|reflexivity].
Qed.

Lemma env_extend_when b k' v e k :
  env_extend (when b [(k', v)]) e k = if b && str_eqb k k' then Some v else e k.
Proof. destruct b; [apply env_extend_one|reflexivity]. Qed.

Lemma base_lookup e k :
  env_extend base_envs e k =
    if str_eqb k (lit "TEST_FUZZ_WRITE") then Some (lit "0")
    else if str_eqb k (lit "TEST_FUZZ") then Some (lit "1") else e k.
Proof.
  change base_envs with ([(lit "TEST_FUZZ", lit "1")] ++ [(lit "TEST_FUZZ_WRITE", lit "0")]).
  rewrite env_extend_app, !env_extend_one. reflexivity.
Qed.

Lemma entry_lookup o e k :
  env_extend (entry_envs o) e k =
    if o_pretty o && str_eqb k (lit "TEST_FUZZ_PRETTY_PRINT") then Some (lit "1")
    else if o_backtrace o && str_eqb k (lit "RUST_BACKTRACE") then Some (lit "1")
    else if is_some (o_replay o) && str_eqb k (lit "TEST_FUZZ_REPLAY") then Some (lit "1")
    else if is_some (o_display o) && str_eqb k (lit "TEST_FUZZ_DISPLAY") then Some (lit "1")
    else if is_some (o_coverage o) && str_eqb k (lit "TEST_FUZZ_COVERAGE") then Some (lit "1")
    else if str_eqb k (lit "AFL_QUIET") then Some (lit "1")
    else if str_eqb k (lit "TEST_FUZZ_WRITE") then Some (lit "0")
    else if str_eqb k (lit "TEST_FUZZ") then Some (lit "1")
    else e k.
Proof.
  unfold entry_envs. rewrite !env_extend_app, !env_extend_when, env_extend_one, base_lookup. reflexivity.
Qed.

Lemma fuzz_lookup ui o e k :
  env_extend (fuzz_envs ui o) e k =
    if o_run_until_crash o && str_eqb k (lit "AFL_BENCH_UNTIL_CRASH") then Some (lit "1")
    else if negb ui && str_eqb k (lit "AFL_NO_UI") then Some (lit "1")
    else if str_eqb k (lit "TEST_FUZZ_WRITE") then Some (lit "0")
    else if str_eqb k (lit "TEST_FUZZ") then Some (lit "1")
    else e k.
Proof.
  unfold fuzz_envs. rewrite !env_extend_app, !env_extend_when, base_lookup. reflexivity.
Qed.

Ltac eqb_consts :=
  repeat match goal with
  | |- context [str_eqb ?a ?b] =>
      let r := eval vm_compute in (str_eqb a b) in
      lazymatch r with
      | true => change (str_eqb a b) with true
      | false => change (str_eqb a b) with false
      end
  end; rewrite ?andb_false_r, ?andb_true_r; cbn [andb].

(** The switches of a harness, from the options and the environment it inherits
    ([e]: cargo-test-fuzz's environment with the coverage tool's variables). *)
Lemma entry_switches o e :
  let h := env_extend (entry_envs o) e in
  test_fuzz_enabled h = true /\ write_enabled h = false /\
  coverage_enabled h = (is_some (o_coverage o) || coverage_enabled e) /\
  display_enabled h = (is_some (o_display o) || display_enabled e) /\
  replay_enabled h = (is_some (o_replay o) || replay_enabled e) /\
  pretty_print_enabled h = (o_pretty o || pretty_print_enabled e).
Proof.
  cbv zeta. unfold test_fuzz_enabled, write_enabled, coverage_enabled, display_enabled, replay_enabled,
    pretty_print_enabled, enabled, var.
  rewrite !entry_lookup.
  split; [|split; [|split; [|split; [|split]]]]; eqb_consts.
  - reflexivity.
  - reflexivity.
  - destruct (is_some (o_coverage o)); reflexivity.
  - destruct (is_some (o_display o)); reflexivity.
  - destruct (is_some (o_replay o)); reflexivity.
  - destruct (o_pretty o); reflexivity.
Qed.

Lemma fuzz_switches ui o e :
  let h := env_extend (fuzz_envs ui o) e in
  test_fuzz_enabled h = true /\ write_enabled h = false /\
  coverage_enabled h = coverage_enabled e /\ display_enabled h = display_enabled e /\
  replay_enabled h = replay_enabled e /\ pretty_print_enabled h = pretty_print_enabled e.
Proof.
  cbv zeta. unfold test_fuzz_enabled, write_enabled, coverage_enabled, display_enabled, replay_enabled,
    pretty_print_enabled, enabled, var.
  rewrite !fuzz_lookup.
  split; [|split; [|split; [|split; [|split]]]]; eqb_consts; reflexivity.
Qed.
