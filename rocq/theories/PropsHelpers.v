(** C112: the integration tests ask for what they mean, and stay apart from each other. *)
From Coq Require Import List Ascii String Bool Arith NArith Lia.
From Verif Require Import Base Utf8 Env Opts Decimal Dirs DirsText Cli TestHelpers PropsDirs PropsSupport.
Import ListNotations.
Local Open Scope nat_scope.

(** * Specification *)

(** Words not taken for options. *)
Definition no_dash (s : str) : Prop := forall r, s <> "-"%char :: r.

(** All options as they are without arguments, except the manifest, the features, the test
    executable, whether names are exact, and the target. *)
Definition asks_for (manifest features : str) (krate : option str) (exact : bool) (target : option str) : opts :=
  {| o_backtrace := false; o_consolidate := false; o_consolidate_all := false; o_coverage := None;
     o_cpus := None; o_display := None; o_exact := exact; o_exit_code := false; o_list := false;
     o_max_total_time := None; o_no_run := false; o_no_ui := false; o_persistent := false;
     o_pretty := false; o_replay := None; o_reset := false; o_reset_all := false; o_resume := false;
     o_run_until_crash := false; o_slice := 1200%N; o_timeout := None;
     o_features := [features]; o_manifest_path := Some manifest; o_no_default_features := false; o_package := None;
     o_release := false; o_test := krate; o_verbose := false; o_ztarget := target; o_zzargs := [] |}.

(** [p] is the executable of a test artifact with a name that begins with [krate] and a dash. *)
Definition found (krate : str) (ms : list message) (p : path) : Prop :=
  In (MArtifact true (Some p)) ms /\ exists d rest, p = d ++ [krate ++ lit "-" ++ rest].

(** * Proofs *)

Lemma step_pending r k v : no_dash v -> r_pending r = Some k -> step r v = Some (add_val k v r).
Proof. intros N P. destruct v as [|c v]; cbn [step]; [now rewrite P|]. destruct c as [[] [] [] [] [] [] [] []]; try (now rewrite P). exfalso. exact (N v eq_refl). Qed.
Lemma step_target r v : no_dash v -> r_pending r = None -> step r v = Some (add_target v r).
Proof. intros N P. destruct v as [|c v]; cbn [step]; [now rewrite P|]. destruct c as [[] [] [] [] [] [] [] []]; try (now rewrite P). exfalso. exact (N v eq_refl). Qed.

Lemma not_dashes v : no_dash v -> str_eqb v (lit "--") = false.
Proof. intros N. unfold str_eqb. destruct (str_dec v (lit "--")) as [->|]; [|reflexivity]. exfalso. exact (N _ eq_refl). Qed.

Lemma read_pair k word v r args : no_dash v -> r_pending r = None ->
  (forall r, r_pending r = None -> step r word = Some (await k r)) -> str_eqb word (lit "--") = false ->
  read r (word :: v :: args) = read (add_val k v r) args.
Proof.
  intros N P St W. cbn [read]. rewrite W, (St r P), (not_dashes v N). now rewrite (step_pending (await k r) k v N eq_refl).
Qed.

(** C112: the command lines with which the tests start the tool are understood as intended:
    the manifest, the serialisation format as the only feature, the test executable, the target,
    compared exactly or not, and nothing else. *)
Theorem C112_understood :
  forall (e : env) (digits own manifest format krate target prog : str),
    no_dash own -> no_dash manifest -> no_dash krate -> no_dash target ->
    cli (started prog (test_fuzz e digits own manifest format krate target))
      = Some (asks_for manifest (lit "test-fuzz/" ++ format) (Some krate) true (Some target)) /\
    cli (started prog (test_fuzz_inexact e digits own manifest format krate target))
      = Some (asks_for manifest (lit "test-fuzz/" ++ format) (Some krate) false (Some target)) /\
    cli (started prog (test_fuzz_all e digits own manifest format))
      = Some (asks_for manifest (lit "test-fuzz/" ++ format) None false None).
Proof.
  intros e digits own manifest format krate target prog O M K T.
  assert (A : forall rest c, c_args c = c_args (test_fuzz_all e digits own manifest format) ++ rest ->
     started prog c = prog :: lit "test-fuzz" :: lit "--manifest-path" :: manifest :: lit "--features" :: (lit "test-fuzz/" ++ format) :: rest).
  { intros rest c E. unfold started. rewrite E. unfold test_fuzz_all. cbn [with_args with_env new_command c_args app].
    unfold after_dashes at 1. change (str_eqb (lit "run") (lit "--")) with false. change (str_eqb (lit "--bin=cargo-test-fuzz") (lit "--")) with false.
    change (str_eqb (lit "--manifest-path") (lit "--")) with false. cbv iota. fold after_dashes. rewrite (not_dashes own O). reflexivity. }
  assert (F : no_dash (lit "test-fuzz/" ++ format)) by (intros r; discriminate).
  assert (R : forall rest, read raw0 (lit "--manifest-path" :: manifest :: lit "--features" :: (lit "test-fuzz/" ++ format) :: rest)
            = read (add_val OFeatures (lit "test-fuzz/" ++ format) (add_val OManifestPath manifest raw0)) rest).
  { intros rest. rewrite (read_pair OManifestPath _ _ raw0 _ M eq_refl); [|intros r P; cbn; now rewrite P|reflexivity].
    apply read_pair; auto. intros r P. cbn. now rewrite P. }
  set (r0 := add_val OFeatures _ _) in R.
  assert (R' : forall rest, read raw0 (lit "--manifest-path" :: manifest :: lit "--features" :: (lit "test-fuzz/" ++ format) :: lit "--test" :: krate :: rest)
            = read (add_val OTest krate r0) rest).
  { intros rest. rewrite R. apply read_pair; auto. intros r P. cbn. now rewrite P. }
  assert (Tg : forall r, r_pending r = None -> read r [target] = Some (add_target target r)).
  { intros r P. cbn [read]. rewrite (not_dashes _ T), (step_target _ _ T P). reflexivity. }
  split; [|split].
  - rewrite (A [lit "--test"; krate; lit "--exact"; target]) by reflexivity. unfold cli. rewrite str_eqb_refl, R'.
    change (read (add_val OTest krate r0) [lit "--exact"; target]) with (read (add_flag FExact (add_val OTest krate r0)) [target]). rewrite Tg by reflexivity. reflexivity.
  - rewrite (A [lit "--test"; krate; target]) by reflexivity. unfold cli. rewrite str_eqb_refl, R'. rewrite Tg by reflexivity. reflexivity.
  - rewrite (A []) by (now rewrite app_nil_r). unfold cli. rewrite str_eqb_refl, R. reflexivity.
Qed.
Print Assumptions C112_understood.

Lemma begins_spec a s : begins a s = true <-> exists r, s = a ++ r.
Proof.
  revert s. induction a as [|c a IH]; intros s; [split; [now exists s|reflexivity]|]. destruct s as [|d s]; cbn [begins].
  - split; [discriminate|intros (r & H); discriminate].
  - rewrite andb_true_iff, IH, Ascii.eqb_eq. split.
    + intros (-> & r & ->). now exists r.
    + intros (r & [= -> ->]). eauto.
Qed.

Lemma candidate_spec krate m p : In p (candidate krate m) <-> m = MArtifact true (Some p) /\ exists d rest, p = d ++ [krate ++ lit "-" ++ rest].
Proof.
  unfold candidate. destruct m as [[|] [q|]|]; cbn [In]; try (split; [intros []|intros ([=] & _)]).
  unfold file_name. destruct q as [|c q].
  - cbn [In]. split; [intros []|]. intros ([= <-] & d & rest & E). destruct d; discriminate.
  - destruct (exists_last (l := c :: q)) as (d & n & E); [discriminate|]. rewrite E, last_last. destruct (begins (krate ++ lit "-") n) eqn:B.
    + apply begins_spec in B as (r & ->). rewrite <- app_assoc. cbn [In]. split.
      * intros [<-|[]]. split; [reflexivity|]. now exists d, r.
      * intros ([= <-] & _). now left.
    + cbn [In]. split; [intros []|]. intros ([= <-] & d' & rest & E'). apply app_inj_tail in E' as (_ & ->).
      enough (begins (krate ++ lit "-") (krate ++ lit "-" ++ rest) = true) by congruence. apply begins_spec. exists rest. now rewrite <- app_assoc.
Qed.

(** The programs found. *)
Lemma candidates_spec krate ms p : In p (flat_map (candidate krate) ms) <-> found krate ms p.
Proof.
  rewrite in_flat_map. unfold found. split.
  - intros (m & I & H). apply candidate_spec in H as (-> & H). auto.
  - intros (I & H). eexists. split; [exact I|]. apply candidate_spec. auto.
Qed.

(** C112: the tool is the one of the workspace, run by cargo from the current directory with
    CPU affinity off and with the id of the test. *)
Theorem C112_own_tool :
  forall (e : env) (digits own manifest format krate target : str) (c : command),
    In c [test_fuzz e digits own manifest format krate target; test_fuzz_inexact e digits own manifest format krate target; test_fuzz_all e digits own manifest format] ->
    c_program c = lit "cargo" /\ c_cwd c = None /\
    c_envs c = [(lit "AFL_NO_AFFINITY", Some (lit "1")); (lit "TEST_FUZZ_ID", Some (helper_id e digits))] /\
    exists rest, c_args c = [lit "run"; lit "--bin=cargo-test-fuzz"; lit "--manifest-path"; own; lit "--"; lit "test-fuzz"] ++ rest.
Proof. intros e digits own manifest format krate target c [<-|[<-|[<-|[]]]]; repeat split; eexists; reflexivity. Qed.
Print Assumptions C112_own_tool.

(** C112: the test that is run to record is that of the one executable found, by its exact
    name; without an executable nothing is run, and neither with different ones. *)
Theorem C112_recorder :
  forall (e : env) (digits manifest format : str) (cargo : list str -> option (bool * list message)) (krate name : str) (c : command),
    test e digits manifest format cargo krate name = Ret c ->
    exists ms p, cargo [lit "test"; lit "--manifest-path"; manifest; lit "--test"; krate; lit "--features"; lit "test-fuzz/" ++ format;
                        lit "--no-run"; lit "--message-format=json"] = Some (true, ms) /\
      found krate ms p /\ (forall q, found krate ms q -> q = p) /\
      c_program c = path_text p /\ c_args c = [lit "--exact"; name] /\ c_cwd c = None /\
      c_envs c = [(lit "TEST_FUZZ_ID", Some (helper_id e digits))].
Proof.
  intros e digits manifest format cargo krate name c E. unfold test in E. change (test_args manifest format krate) with
    [lit "test"; lit "--manifest-path"; manifest; lit "--test"; krate; lit "--features"; lit "test-fuzz/" ++ format; lit "--no-run"; lit "--message-format=json"] in E.
  destruct (cargo _) as [[[|] ms]|]; try discriminate. exists ms. pose proof (candidates_spec krate ms) as C.
  destruct (flat_map (candidate krate) ms) as [|p [|q xs]]; try discriminate E. injection E as <-. exists p. split; [reflexivity|]. split; [apply C; now left|].
  split; [intros q H; apply C in H as [H|[]]; congruence|]. repeat split.
Qed.
Print Assumptions C112_recorder.

(** C112: otherwise nothing is run, and the refusal says why: cargo failed, no artifact is such a
    test, or several are. *)
Theorem C112_recorder_refusals :
  forall (e : env) (digits manifest format : str) (cargo : list str -> option (bool * list message)) (krate name : str) (ms : list message),
    let asked := cargo [lit "test"; lit "--manifest-path"; manifest; lit "--test"; krate; lit "--features"; lit "test-fuzz/" ++ format;
                        lit "--no-run"; lit "--message-format=json"] in
    let result := test e digits manifest format cargo krate name in
    (asked = None -> result = Err (lit "Command could not be run")) /\
    (asked = Some (false, ms) -> result = Err (lit "Command failed: ")) /\
    (asked = Some (true, ms) -> (forall p, ~ found krate ms p) -> result = Err (lit "Found no executables starting with `" ++ krate ++ lit "`")) /\
    (forall ms1 ms2 p q, asked = Some (true, ms) -> ms = ms1 ++ ms2 -> found krate ms1 p -> found krate ms2 q ->
       result = Err (lit "Found multiple executables starting with `" ++ krate ++ lit "`")).
Proof.
  intros e digits manifest format cargo krate name ms asked result. unfold result, test.
  change (test_args manifest format krate) with
    [lit "test"; lit "--manifest-path"; manifest; lit "--test"; krate; lit "--features"; lit "test-fuzz/" ++ format; lit "--no-run"; lit "--message-format=json"].
  fold asked. split; [intros ->; reflexivity|]. split; [intros ->; reflexivity|]. split.
  - intros -> N. destruct (flat_map (candidate krate) ms) as [|p xs] eqn:F; [reflexivity|]. exfalso. apply (N p). apply candidates_spec. rewrite F. now left.
  - intros ms1 ms2 p q -> -> P Q. rewrite flat_map_app. apply candidates_spec in P, Q.
    destruct (flat_map (candidate krate) ms1) as [|x xs]; [destruct P|]. destruct (flat_map (candidate krate) ms2) as [|y ys]; [destruct Q|].
    rewrite app_length. cbn [List.length]. destruct (Nat.leb_spec (S (List.length xs) + S (List.length ys)) 1); [lia|reflexivity].
Qed.
Print Assumptions C112_recorder_refusals.

(** C112: and if exactly one artifact is such a test, it is run. *)
Theorem C112_recorder_found :
  forall (e : env) (digits manifest format : str) (cargo : list str -> option (bool * list message)) (krate name : str) (ms1 ms2 : list message) (p : path),
    cargo (test_args manifest format krate) = Some (true, ms1 ++ MArtifact true (Some p) :: ms2) ->
    (exists d rest, p = d ++ [krate ++ lit "-" ++ rest]) -> (forall q, ~ found krate (ms1 ++ ms2) q) ->
    exists c, test e digits manifest format cargo krate name = Ret c /\ c_program c = path_text p.
Proof.
  intros e digits manifest format cargo krate name ms1 ms2 p E P N. unfold test. rewrite E, flat_map_app. cbn [flat_map].
  assert (Z : flat_map (candidate krate) ms1 = [] /\ flat_map (candidate krate) ms2 = []).
  { split; [destruct (flat_map (candidate krate) ms1) as [|q l] eqn:F|destruct (flat_map (candidate krate) ms2) as [|q l] eqn:F]; try reflexivity; exfalso; apply (N q);
      apply candidates_spec; rewrite flat_map_app, F, in_app_iff; [left|right]; now left. }
  destruct Z as (-> & ->). assert (Q : candidate krate (MArtifact true (Some p)) = [p]).
  { assert (I : In p (candidate krate (MArtifact true (Some p)))) by (apply candidate_spec; auto). unfold candidate in *.
    destruct (file_name p) as [n|]; [|destruct I]. now destruct (begins _ _); [|destruct I]. }
  rewrite Q. cbn. eauto.
Qed.
Print Assumptions C112_recorder_found.

Lemma find_set_last l k v k' : str_eqb k k' = true -> List.find (fun kv : bytes * option bytes => str_eqb (fst kv) k') (c_set l k v) = Some (k, Some v).
Proof.
  intros E. apply str_eqb_eq in E. subst k'. rewrite c_set_find. destruct (str_dec k k) as [|N]; [reflexivity|contradiction].
Qed.

Lemma dec_digits n c : In c (dec n) -> (48 <= N_of_ascii c <= 57)%N.
Proof. destruct (dec_numeral n) as (_ & F & _). rewrite Forall_forall in F. apply F. Qed.

Lemma valid_thread (n : N) : valid_utf8 (thread_id (dec n)) = true.
Proof.
  rewrite C10_thread_id.
  - apply ascii_valid, Forall_forall. intros c I. rewrite !in_app_iff in I. destruct I as [I|[I|I]].
    + cbn in I. repeat (destruct I as [<-|I]; [reflexivity|]). destruct I.
    + apply dec_digits in I. unfold byte. lia.
    + cbn in I. destruct I as [<-|[]]. reflexivity.
  - intros c I. apply dec_digits in I. split; intros ->; cbn in I; lia.
Qed.

(** C112: a test, the test program it records with and the tool it starts use the same
    directories, whether the latter two know that they are used in a test or not. *)
Theorem C112_same_directories :
  forall (e : env) (n : N) (own manifest format krate target name : str) (cargo : list str -> option (bool * list message)) (c : command) (in_test : option str),
    In c [test_fuzz e (dec n) own manifest format krate target; test_fuzz_inexact e (dec n) own manifest format krate target; test_fuzz_all e (dec n) own manifest format]
      \/ test e (dec n) manifest format cargo krate name = Ret c ->
    maybe_id (command_env c e) in_test = maybe_id e (Some (dec n)) /\ maybe_id e (Some (dec n)) <> None.
Proof.
  intros e n own manifest format krate target name cargo c in_test H.
  assert (V : valid_utf8 (helper_id e (dec n)) = true).
  { unfold helper_id, var. destruct (e (lit "TEST_FUZZ_ID")) as [v|]; [|apply valid_thread]. destruct (valid_utf8 v) eqn:E; [exact E|apply valid_thread]. }
  assert (S0 : command_env c e (lit "TEST_FUZZ_ID") = Some (helper_id e (dec n))).
  { destruct H as [[<-|[<-|[<-|[]]]]|H]; try reflexivity. apply C112_recorder in H as (ms & p & _ & _ & _ & _ & _ & _ & Q). unfold command_env. rewrite Q. reflexivity. }
  unfold maybe_id at 1. unfold var at 1. rewrite S0, V. unfold helper_id, maybe_id. destruct (var e (lit "TEST_FUZZ_ID")); split; congruence.
Qed.
Print Assumptions C112_same_directories.

(** C112: tests in different threads of one process use different directories, for different
    kinds of data, crates and targets or the same, if TEST_FUZZ_ID is not set. *)
Theorem C112_apart :
  forall (e : env) (n1 n2 : N) (td : path) (k1 k2 : kind) (c1 t1 c2 t2 : str) (p : path),
    e (lit "TEST_FUZZ_ID") = None -> n1 <> n2 -> Forall plain td ->
    (forall x, In x [c1; t1; c2; t2] -> ~ In "/"%char x) -> ~ In ":"%char c1 -> ~ In ":"%char c2 ->
    ~ (under (place (target_dir_text (path_text td) (Some (helper_id e (dec n1))) k1 c1 t1)) p /\
       under (place (target_dir_text (path_text td) (Some (helper_id e (dec n2))) k2 c2 t2)) p).
Proof.
  intros e n1 n2 td k1 k2 c1 t1 c2 t2 p E N F Sl C1 C2.
  assert (P : forall m c, In c (dec m) -> c <> "("%char /\ c <> ")"%char) by (intros m c I; apply dec_digits in I; split; intros ->; cbn in I; lia).
  assert (Q : forall m, helper_id e (dec m) = lit "ThreadId_" ++ dec m ++ lit "_") by (intros m; unfold helper_id, var; rewrite E; apply C10_thread_id; exact (P m)).
  rewrite !Q. apply C10_ids_disjoint; auto.
  - intros i H I. assert (X : exists m, i = lit "ThreadId_" ++ dec m ++ lit "_") by (destruct H as [H|H]; [exists n1|exists n2]; congruence). destruct X as (m & ->).
    rewrite !in_app_iff in I. destruct I as [I|[I|I]]; [|apply dec_digits in I; cbn in I; lia|];
      cbn in I; repeat (destruct I as [I|I]; [discriminate|]); destruct I.
  - intros H. apply N. apply dec_inj. assert (X : lit "ThreadId_" ++ dec n1 ++ lit "_" = lit "ThreadId_" ++ dec n2 ++ lit "_") by congruence.
    apply app_inv_head in X. now apply app_inv_tail in X.
Qed.
Print Assumptions C112_apart.

(** C112: but threads of different processes can have the same number, and then use the same
    directories (so the tests of different programs must not run at the same time); and so do
    all tests if TEST_FUZZ_ID is set. *)
Theorem C112_processes_refuted :
  (exists n : N, forall process1 process2 : env,
     process1 (lit "TEST_FUZZ_ID") = None -> process2 (lit "TEST_FUZZ_ID") = None -> helper_id process1 (dec n) = helper_id process2 (dec n)) /\
  (exists e : env, forall n1 n2 : N, helper_id e (dec n1) = helper_id e (dec n2)).
Proof.
  split.
  - exists 2%N. intros e1 e2 E1 E2. unfold helper_id, var. now rewrite E1, E2.
  - exists (fun k => if str_eqb k (lit "TEST_FUZZ_ID") then Some (lit "i") else None). reflexivity.
Qed.
Print Assumptions C112_processes_refuted.

Definition ex_env : env := fun _ => None.
Example C112_example :
  cli (started (lit "cargo-test-fuzz") (test_fuzz ex_env (dec 12) (lit "/r/Cargo.toml") (lit "/r/fuzzable/Cargo.toml") (lit "serde_postcard") (lit "cast") (lit "target")))
    = Some (asks_for (lit "/r/fuzzable/Cargo.toml") (lit "test-fuzz/serde_postcard") (Some (lit "cast")) true (Some (lit "target"))) /\
  helper_id ex_env (dec 12) = lit "ThreadId_12_" /\
  test ex_env (dec 12) (lit "m") (lit "f")
    (fun _ => Some (true, [MOther; MArtifact false (Some [lit "t"; lit "cast-0"]); MArtifact true (Some [lit "t"; lit "deps"; lit "cast-1a"]);
                           MArtifact true (Some [lit "t"; lit "casting-2"])])) (lit "cast") (lit "test")
    = Ret {| c_program := lit "/t/deps/cast-1a"; c_args := [lit "--exact"; lit "test"]; c_envs := [(lit "TEST_FUZZ_ID", Some (lit "ThreadId_12_"))]; c_cwd := None |}.
Proof. vm_compute. auto. Qed.
