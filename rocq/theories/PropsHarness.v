(** Properties C28-C35 and C67: the generated harness, the instrumented function
    and the environments cargo test-fuzz gives them. *)
From Coq Require Import String Ascii List Bool Arith Lia.
From Verif Require Import Base Utf8 Env Opts Harness.
Import ListNotations.

(** A concrete target used in the examples: arguments and results are numbers,
    the input decodes if it is not empty, the target panics on 7. *)
Definition ex_user : user nat nat := {|
  u_decode := fun b => match b with [] => NotDecoded | _ => Decoded (length b) end;
  u_show_args := fun _ => true;
  u_target := fun n => if Nat.eqb n 7 then None else Some (n + 1);
  u_show_ret := fun _ => true |}.

(** A variable is on when it is set to valid text other than 0. *)
Definition switched_on (e : env) (k : bytes) : Prop :=
  exists v, e k = Some v /\ valid_utf8 v = true /\ v <> lit "0".

Lemma enabled_spec e opt :
  enabled e opt = true <->
  switched_on e (lit "TEST_FUZZ" ++ (match opt with [] => [] | _ => lit "_" end) ++ opt).
Proof.
  unfold enabled, switched_on, var. set (k := lit "TEST_FUZZ" ++ _).
  destruct (e k) as [v|]; [destruct (valid_utf8 v) eqn:V|].
  - rewrite negb_true_iff. split.
    + intros H. exists v. repeat split; auto. now apply str_eqb_neq.
    + intros (v' & [= <-] & _ & H). now apply str_eqb_neq.
  - split; [discriminate|]. intros (v' & [= <-] & H & _). congruence.
  - split; [discriminate|]. intros (v' & H & _). discriminate.
Qed.

Lemma not_on_disabled e : ~ switched_on e (lit "TEST_FUZZ") -> test_fuzz_enabled e = false.
Proof.
  intros H. unfold test_fuzz_enabled. destruct (enabled e []) eqn:E; [|reflexivity].
  exfalso. apply H. apply (enabled_spec e []). exact E.
Qed.

(** C28: with TEST_FUZZ unset, 0 or not UTF-8 the harness does nothing but warn and pass. *)
Theorem C28_inert :
  forall (A R : Type) (u : user A R) (e : env) (nontrivial : bool) (stdin : bytes),
    ~ switched_on e (lit "TEST_FUZZ") ->
    entry u e nontrivial stdin = ([HWarn], HPass).
Proof. intros. apply entry_disabled, not_on_disabled. assumption. Qed.
Print Assumptions C28_inert.

Example C28_example :
  ~ switched_on (env_extend [(lit "TEST_FUZZ", lit "0")] (fun _ => None)) (lit "TEST_FUZZ") /\
  entry ex_user (fun _ => None) true (lit "1234567") = ([HWarn], HPass).
Proof. split; [|reflexivity]. intros (v & H & _ & N). injection H as <-. contradiction. Qed.

(** C29: displaying never runs the target and never aborts the process. *)
Theorem C29_display_never_calls :
  forall (A R : Type) (u : user A R) (e : env) (nontrivial : bool) (stdin : bytes),
    switched_on e (lit "TEST_FUZZ_DISPLAY") ->
    ~ switched_on e (lit "TEST_FUZZ_COVERAGE") -> ~ switched_on e (lit "TEST_FUZZ_REPLAY") ->
    (forall a, ~ In (HCall a) (fst (entry u e nontrivial stdin))) /\
    snd (entry u e nontrivial stdin) <> HAbort.
Proof.
  intros A R u e nt stdin D C P.
  assert (D' : display_enabled e = true) by (apply enabled_spec; exact D).
  assert (C' : coverage_enabled e = false).
  { destruct (coverage_enabled e) eqn:E; [|reflexivity]. exfalso. apply C. apply enabled_spec in E. exact E. }
  assert (P' : replay_enabled e = false).
  { destruct (replay_enabled e) eqn:E; [|reflexivity]. exfalso. apply P. apply enabled_spec in E. exact E. }
  destruct (entry_display u e nt stdin D' C' P') as [H1 H2]. split; [|exact H2].
  intros a I. assert (G : forall l : list (hevent A R), In (HCall a) l -> calls l <> []).
  { clear. induction l as [|[] l IH]; simpl; intros I; try (destruct I as [I|I]; [discriminate I|apply IH; exact I]); try discriminate.
    contradiction. }
  apply (G _ I H1).
Qed.
Print Assumptions C29_display_never_calls.

(** C29: and it shows the arguments (in the asked format). *)
Theorem C29_display_shows :
  forall (A R : Type) (u : user A R) (e : env) (nontrivial : bool) (stdin : bytes) (a : A),
    test_fuzz_enabled e = true -> display_enabled e = true ->
    coverage_enabled e = false -> replay_enabled e = false ->
    u_decode u stdin = Decoded a -> u_show_args u a = true ->
    entry u e nontrivial stdin = ([HRead; HShowArgs (pretty_print_enabled e) a; HNewline], HPass).
Proof. intros A R. exact entry_display_shows. Qed.
Print Assumptions C29_display_shows.

Example C29_example :
  entry ex_user (env_extend [(lit "TEST_FUZZ", lit "1"); (lit "TEST_FUZZ_DISPLAY", lit "1")] (fun _ => None))
    true (lit "1234567") = ([HRead; HShowArgs false 7; HNewline], HPass).
Proof. vm_compute. reflexivity. Qed.

(** C30: when fuzzing, replaying or measuring coverage the target is called once
    with the decoded arguments, or not at all if the input does not decode (the test
    then passes), and never with anything else.  (When also displaying, a panic
    while printing the arguments comes first.) *)
Theorem C30_called_once :
  forall (A R : Type) (u : user A R) (e : env) (nontrivial : bool) (stdin : bytes),
    test_fuzz_enabled e = true ->
    (display_enabled e = false \/ coverage_enabled e = true \/ replay_enabled e = true) ->
    (forall a, u_decode u stdin = Decoded a ->
       (display_enabled e = true -> u_show_args u a = true) ->
       calls (fst (entry u e nontrivial stdin)) = [a]) /\
    (forall a, u_decode u stdin = Decoded a ->
       calls (fst (entry u e nontrivial stdin)) = [a] \/ calls (fst (entry u e nontrivial stdin)) = []) /\
    (u_decode u stdin = NotDecoded ->
       calls (fst (entry u e nontrivial stdin)) = [] /\ snd (entry u e nontrivial stdin) = HPass) /\
    (u_decode u stdin = DecodePanic -> calls (fst (entry u e nontrivial stdin)) = []).
Proof. intros A R. exact entry_calls. Qed.
Print Assumptions C30_called_once.

(** C30: a panicking target aborts the process when fuzzing; when replaying or
    measuring coverage only the test fails. *)
Theorem C30_panic :
  forall (A R : Type) (u : user A R) (e : env) (nontrivial : bool) (stdin : bytes) (a : A),
    test_fuzz_enabled e = true ->
    u_decode u stdin = Decoded a -> u_target u a = None ->
    (display_enabled e = true -> u_show_args u a = true) ->
    (display_enabled e = false -> coverage_enabled e = false -> replay_enabled e = false ->
       entry u e nontrivial stdin = ([HRead; HCall a], HAbort)) /\
    (coverage_enabled e = true \/ replay_enabled e = true -> snd (entry u e nontrivial stdin) = HFail).
Proof. intros A R. exact entry_panic. Qed.
Print Assumptions C30_panic.

(** C30: the warning that coverage will not be shown (the function has several
    statements) comes first, exactly when measuring coverage of such a function. *)
Theorem C30_coverage_warning :
  forall (A R : Type) (u : user A R) (e : env) (nontrivial : bool) (stdin : bytes),
    let t := fst (entry u e nontrivial stdin) in
    (In HWarnNontrivial t <-> test_fuzz_enabled e = true /\ coverage_enabled e = true /\ nontrivial = true) /\
    (In HWarnNontrivial t -> exists t', t = HWarnNontrivial :: t' /\ ~ In HWarnNontrivial t').
Proof.
  intros A R u e nt stdin. cbv zeta. unfold entry, entry_body, warn_first, input_args, output_args, output_ret, call.
  destruct (test_fuzz_enabled e); cbn [fst app hret];
    [|split; [|intros [H|[]]; discriminate]; split; [intros [H|[]]; discriminate|intros [H _]; discriminate]].
  destruct (coverage_enabled e) eqn:Ce, (display_enabled e), (replay_enabled e), nt; cbn;
    destruct (u_decode u stdin) as [a| |]; cbn;
    repeat match goal with |- context [u_show_args u ?a] => destruct (u_show_args u a); cbn
                         | |- context [u_target u ?a] => destruct (u_target u a); cbn
                         | |- context [u_show_ret u ?a] => destruct (u_show_ret u a); cbn end;
    (split; [intuition congruence|intros H; first [eexists; split; [reflexivity|cbn; intuition congruence]|exfalso; intuition congruence]]).
Qed.
Print Assumptions C30_coverage_warning.

(** C30: a returning target makes the fuzzing harness pass silently; replaying shows the result. *)
Theorem C30_returns :
  forall (A R : Type) (u : user A R) (e : env) (nontrivial : bool) (stdin : bytes) (a : A) (r : R),
    test_fuzz_enabled e = true ->
    u_decode u stdin = Decoded a -> u_target u a = Some r -> u_show_ret u r = true ->
    display_enabled e = false -> coverage_enabled e = false ->
    (replay_enabled e = false -> entry u e nontrivial stdin = ([HRead; HCall a], HPass)) /\
    (replay_enabled e = true ->
       entry u e nontrivial stdin = ([HRead; HCall a; HShowRet (pretty_print_enabled e) r; HNewline], HPass)).
Proof.
  intros A R u e nt stdin a r T E P S D C. split; intros Q.
  - eapply entry_ok; eassumption.
  - eapply entry_replay; eassumption.
Qed.
Print Assumptions C30_returns.

Example C30_example :
  let fuzz := env_extend [(lit "TEST_FUZZ", lit "1")] (fun _ => None) in
  let replay := env_extend [(lit "TEST_FUZZ", lit "1"); (lit "TEST_FUZZ_REPLAY", lit "1")] (fun _ => None) in
  entry ex_user fuzz true (lit "1234567") = ([HRead; HCall 7], HAbort) /\
  entry ex_user fuzz true [] = ([HRead], HPass) /\
  entry ex_user replay true (lit "123") = ([HRead; HCall 3; HShowRet false 4; HNewline], HPass) /\
  entry ex_user replay true (lit "1234567") = ([HRead; HCall 7], HFail).
Proof. vm_compute. auto. Qed.

(** C31: in a test build with TEST_FUZZ off, the generic arguments and (unless
    only_generic_args) the arguments are recorded first, in this order, and then the
    function does exactly what the original does, panicking or not; if recording
    panics, the original is not run. *)
Theorem C31_records_then_runs :
  forall (S A R : Type) (record1 : record_ A -> S -> S * bool) (body : A -> S -> S * option R)
         (impl_names names : list str) (f : fopts) (e : env) (a : A) (s s1 s2 s3 : S),
    ~ switched_on e (lit "TEST_FUZZ") ->
    record1 (RecImplGenericArgs impl_names) s = (s1, true) ->
    record1 (RecGenericArgs names) s1 = (s2, true) ->
    (if f_only_generic_args f then s3 = s2 else record1 (RecArgs a) s2 = (s3, true)) ->
    instrumented record1 body impl_names names true f e a s = body a s3.
Proof.
  intros S A R record1 body inames names f e a s s1 s2 s3 T R1 R2 R3.
  unfold instrumented, recording, to_record. rewrite (not_on_disabled e T). simpl. rewrite R1, R2.
  destruct (f_only_generic_args f); simpl.
  - now rewrite R3.
  - now rewrite R3.
Qed.
Print Assumptions C31_records_then_runs.

(** C31: if the first recording panics, so does the function, and its body is not run. *)
Theorem C31_recording_failure_panics_first :
  forall (S A R : Type) (record1 : record_ A -> S -> S * bool) (body : A -> S -> S * option R)
         (impl_names names : list str) (f : fopts) (e : env) (a : A) (s s1 : S),
    ~ switched_on e (lit "TEST_FUZZ") ->
    record1 (RecImplGenericArgs impl_names) s = (s1, false) ->
    instrumented record1 body impl_names names true f e a s = (s1, None).
Proof.
  intros S A R record1 body inames names f e a s s1 T R1.
  unfold instrumented, recording, to_record. rewrite (not_on_disabled e T). simpl. now rewrite R1.
Qed.
Print Assumptions C31_recording_failure_panics_first.

(** C31: when the call is not recorded the function is exactly the original. *)
Theorem C31_transparent :
  forall (S A R : Type) (record1 : record_ A -> S -> S * bool) (body : A -> S -> S * option R)
         (impl_names names : list str) (f : fopts) (e : env) (a : A) (s : S),
    switched_on e (lit "TEST_FUZZ") ->
    instrumented record1 body impl_names names true f e a s = body a s.
Proof.
  intros S A R record1 body inames names f e a s T. unfold instrumented, recording.
  assert (test_fuzz_enabled e = true) as -> by (apply (enabled_spec e []); exact T). reflexivity.
Qed.
Print Assumptions C31_transparent.

Definition ex_record (r : record_ nat) (s : list (record_ nat)) : list (record_ nat) * bool := (s ++ [r], true).
Definition ex_body (a : nat) (s : list (record_ nat)) : list (record_ nat) * option nat :=
  (s, if Nat.eqb a 7 then None else Some a).

Example C31_example :
  instrumented ex_record ex_body [] [lit "u8"] true
    {| f_only_generic_args := false; f_enable_in_production := false |} (fun _ => None) 7 []
  = ([RecImplGenericArgs []; RecGenericArgs [lit "u8"]; RecArgs 7], None).
Proof. reflexivity. Qed.

(** C32: outside test builds nothing is recorded unless enable_in_production was
    given and TEST_FUZZ_WRITE is on. *)
Theorem C32_production_off :
  forall (S A R : Type) (record1 : record_ A -> S -> S * bool) (body : A -> S -> S * option R)
         (impl_names names : list str) (f : fopts) (e : env) (a : A) (s : S),
    f_enable_in_production f = false \/ ~ switched_on e (lit "TEST_FUZZ_WRITE") ->
    instrumented record1 body impl_names names false f e a s = body a s.
Proof.
  intros S A R record1 body inames names f e a s H. unfold instrumented, recording.
  destruct H as [H|H]; [now rewrite H|].
  assert (write_enabled e = false) as ->.
  { destruct (write_enabled e) eqn:E; [|reflexivity]. exfalso. apply H. apply enabled_spec in E. exact E. }
  rewrite andb_false_r. reflexivity.
Qed.
Print Assumptions C32_production_off.

(** C32: with both it records, whatever TEST_FUZZ is; in test builds neither
    TEST_FUZZ_WRITE nor enable_in_production matters. *)
Theorem C32_production_on :
  forall (S A R : Type) (record1 : record_ A -> S -> S * bool) (body : A -> S -> S * option R)
         (impl_names names : list str) (f : fopts) (e e' : env) (a : A) (s : S),
    f_enable_in_production f = true -> switched_on e (lit "TEST_FUZZ_WRITE") ->
    ~ switched_on e' (lit "TEST_FUZZ") ->
    instrumented record1 body impl_names names false f e a s
    = instrumented record1 body impl_names names true f e' a s.
Proof.
  intros S A R record1 body inames names f e e' a s F W T. unfold instrumented, recording.
  rewrite F, (not_on_disabled e' T).
  assert (write_enabled e = true) as -> by (apply (enabled_spec e (lit "WRITE")); exact W). reflexivity.
Qed.
Print Assumptions C32_production_on.

(** C32: in test builds only TEST_FUZZ and [only_generic_args] matter. *)
Theorem C32_test_build_ignores_write :
  forall (S A R : Type) (record1 : record_ A -> S -> S * bool) (body : A -> S -> S * option R)
         (impl_names names : list str) (f f' : fopts) (e e' : env) (a : A) (s : S),
    f_only_generic_args f = f_only_generic_args f' ->
    e (lit "TEST_FUZZ") = e' (lit "TEST_FUZZ") ->
    instrumented record1 body impl_names names true f e a s
    = instrumented record1 body impl_names names true f' e' a s.
Proof.
  intros S A R record1 body inames names f f' e e' a s F E. unfold instrumented, recording, to_record, test_fuzz_enabled, enabled, var.
  change (lit "TEST_FUZZ" ++ [] ++ []) with (lit "TEST_FUZZ"). rewrite E, F. reflexivity.
Qed.
Print Assumptions C32_test_build_ignores_write.

Example C32_example :
  let f := {| f_only_generic_args := true; f_enable_in_production := true |} in
  instrumented ex_record ex_body [] [] false f (fun _ => None) 1 [] = ([], Some 1) /\
  instrumented ex_record ex_body [] [] false f (env_extend [(lit "TEST_FUZZ_WRITE", lit "1")] (fun _ => None)) 1 []
  = ([RecImplGenericArgs []; RecGenericArgs []], Some 1).
Proof. split; vm_compute; reflexivity. Qed.

(** C33: a harness started for display, replay or coverage, or by the fuzzer, never
    records, whatever the environment cargo test-fuzz itself runs in ([parent]) and
    the coverage tool's variables ([llvm]). *)
Theorem C33_entries_never_record :
  forall (S A R : Type) (record1 : record_ A -> S -> S * bool) (body : A -> S -> S * option R)
         (impl_names names : list str) (cfg_test : bool) (f : fopts) (a : A) (s : S)
         (o : opts) (llvm parent : list (bytes * bytes)) (program : bytes),
    instrumented record1 body impl_names names cfg_test f (entry_harness_env o llvm program parent) a s
    = body a s.
Proof.
  intros. unfold instrumented, recording.
  assert (T : forall k, entry_harness_env o llvm program parent k = env_extend (entry_envs o) (env_extend llvm (lookup_last parent)) k).
  { intros k. rewrite entry_harness_env_eq, env_extend_app. reflexivity. }
  unfold test_fuzz_enabled, write_enabled. rewrite !(enabled_ext _ _ _ T).
  destruct (entry_switches o (env_extend llvm (lookup_last parent))) as (E1 & E2 & _).
  unfold test_fuzz_enabled, write_enabled in E1, E2. rewrite E1, E2, andb_false_r. destruct cfg_test; reflexivity.
Qed.
Print Assumptions C33_entries_never_record.

(** C33: nor does a harness run by the fuzzer. *)
Theorem C33_fuzzing_never_records :
  forall (S A R : Type) (record1 : record_ A -> S -> S * bool) (body : A -> S -> S * option R)
         (impl_names names : list str) (cfg_test : bool) (f : fopts) (a : A) (s : S)
         (o : opts) (ui : bool) (llvm parent : list (bytes * bytes)),
    instrumented record1 body impl_names names cfg_test f (fuzz_harness_env ui o llvm parent) a s
    = body a s.
Proof.
  intros. unfold instrumented, recording.
  assert (T : forall k, fuzz_harness_env ui o llvm parent k = env_extend (fuzz_envs ui o) (env_extend llvm (lookup_last parent)) k).
  { intros k. rewrite fuzz_harness_env_eq, env_extend_app. reflexivity. }
  unfold test_fuzz_enabled, write_enabled. rewrite !(enabled_ext _ _ _ T).
  destruct (fuzz_switches ui o (env_extend llvm (lookup_last parent))) as (E1 & E2 & _).
  unfold test_fuzz_enabled, write_enabled in E1, E2. rewrite E1, E2, andb_false_r. destruct cfg_test; reflexivity.
Qed.
Print Assumptions C33_fuzzing_never_records.

Example C33_example :
  let parent := [(lit "TEST_FUZZ_WRITE", lit "1"); (lit "TEST_FUZZ", lit "0")] in
  let f := {| f_only_generic_args := false; f_enable_in_production := true |} in
  instrumented ex_record ex_body [] [] false f (lookup_last parent) 1 [] = ([RecImplGenericArgs []; RecGenericArgs []; RecArgs 1], Some 1) /\
  instrumented ex_record ex_body [] [] false f (fuzz_harness_env true default_opts [] parent) 1 [] = ([], Some 1).
Proof. split; vm_compute; reflexivity. Qed.

(** C34: if the inherited environment sets none of the mode variables, the modes of
    a harness are those of the command line. *)
Definition mode_vars : list bytes := [lit "TEST_FUZZ_COVERAGE"; lit "TEST_FUZZ_DISPLAY"; lit "TEST_FUZZ_REPLAY"].

Lemma unset_disabled e k : e (lit "TEST_FUZZ" ++ lit "_" ++ k) = None -> k <> [] -> enabled e k = false.
Proof. intros H N. unfold enabled, var. destruct k; [contradiction|]. now rewrite H. Qed.

(** C34: if none of the mode variables is inherited, the modes are those of the command line. *)
Theorem C34_modes_as_asked :
  forall (o : opts) (llvm parent : list (bytes * bytes)) (program : bytes) (ui : bool),
    (forall k, In k mode_vars -> env_extend llvm (lookup_last parent) k = None) ->
    let he := entry_harness_env o llvm program parent in
    let hf := fuzz_harness_env ui o llvm parent in
    (test_fuzz_enabled he = true /\ coverage_enabled he = is_some (o_coverage o) /\
     display_enabled he = is_some (o_display o) /\ replay_enabled he = is_some (o_replay o)) /\
    (test_fuzz_enabled hf = true /\ coverage_enabled hf = false /\
     display_enabled hf = false /\ replay_enabled hf = false).
Proof.
  intros o llvm parent program ui H. cbv zeta.
  set (e := env_extend llvm (lookup_last parent)).
  assert (T : forall k, entry_harness_env o llvm program parent k = env_extend (entry_envs o) e k).
  { intros k. rewrite entry_harness_env_eq, env_extend_app. reflexivity. }
  assert (T' : forall k, fuzz_harness_env ui o llvm parent k = env_extend (fuzz_envs ui o) e k).
  { intros k. rewrite fuzz_harness_env_eq, env_extend_app. reflexivity. }
  destruct (entry_switches o e) as (E1 & _ & E2 & E3 & E4 & _).
  destruct (fuzz_switches ui o e) as (F1 & _ & F2 & F3 & F4 & _).
  assert (C : coverage_enabled e = false) by (apply unset_disabled; [apply H; simpl; auto|discriminate]).
  assert (D : display_enabled e = false) by (apply unset_disabled; [apply H; simpl; auto|discriminate]).
  assert (P : replay_enabled e = false) by (apply unset_disabled; [apply H; simpl; auto|discriminate]).
  unfold test_fuzz_enabled, coverage_enabled, display_enabled, replay_enabled in *.
  rewrite !(enabled_ext _ _ _ T), !(enabled_ext _ _ _ T').
  rewrite E1, E2, E3, E4, F1, F2, F3, F4, C, D, P, !orb_false_r. auto 10.
Qed.
Print Assumptions C34_modes_as_asked.

(** C34: without that hypothesis it fails: there is an inherited environment in
    which fuzzing never calls any target. *)
Theorem C34_modes_as_asked_refuted :
  exists (parent : list (bytes * bytes)), forall (A R : Type) (u : user A R) (o : opts) (ui nontrivial : bool) (stdin : bytes),
    calls (fst (entry u (fuzz_harness_env ui o [] parent) nontrivial stdin)) = [].
Proof.
  exists [(lit "TEST_FUZZ_DISPLAY", lit "1")]. intros A R u o ui nt stdin.
  set (e := lookup_last [(lit "TEST_FUZZ_DISPLAY", lit "1")]).
  assert (T' : forall k, fuzz_harness_env ui o [] [(lit "TEST_FUZZ_DISPLAY", lit "1")] k = env_extend (fuzz_envs ui o) e k).
  { intros k. rewrite fuzz_harness_env_eq, env_extend_app. reflexivity. }
  destruct (fuzz_switches ui o e) as (F1 & _ & F2 & F3 & F4 & _).
  apply entry_display; unfold test_fuzz_enabled, coverage_enabled, display_enabled, replay_enabled in *;
    rewrite !(enabled_ext _ _ _ T'); rewrite ?F2, ?F3, ?F4; reflexivity.
Qed.
Print Assumptions C34_modes_as_asked_refuted.

Example C34_example :
  (forall k, In k mode_vars -> env_extend [] (lookup_last [(lit "PATH", lit "/bin")]) k = None) /\
  entry ex_user (fuzz_harness_env true default_opts [] [(lit "PATH", lit "/bin")]) false (lit "123") = ([HRead; HCall 3], HPass).
Proof.
  split; [|vm_compute; reflexivity].
  intros k [<-|[<-|[<-|[]]]]; reflexivity.
Qed.

(** C35: at most one warning, whatever the threads do and whatever the checks say;
    with a constant environment exactly one (once a thread is through) if TEST_FUZZ
    is off and none if it is on. *)
Theorem C35_at_most_once :
  forall (l : list wstep), snd (wrun l) <= 1.
Proof.
  intros l. unfold wrun. rewrite wrun_count by discriminate.
  destruct (first_check OnceNew l) as [[]|]; lia.
Qed.
Print Assumptions C35_at_most_once.

(** C35: with TEST_FUZZ constant, exactly one warning once a thread is through, if it is off, and none if it is on. *)
Theorem C35_once_iff_disabled :
  forall (l : list wstep) (on : bool),
    (forall t on', In (WLeave t on') l -> on' = on) ->
    snd (wrun l) = if on then 0 else match fst (wrun l) with OnceDone => 1 | _ => 0 end.
Proof. exact wrun_const. Qed.
Print Assumptions C35_once_iff_disabled.

Example C35_example :
  wrun [WEnter 1; WEnter 2; WLeave 1 false; WEnter 3; WEnter 2; WLeave 2 false; WLeave 3 false] = (OnceDone, 1).
Proof. reflexivity. Qed.

(** C67: converting a command preserves program, arguments, directory and effective
    environment; variables added afterwards win. *)
Theorem C67_conversion_preserves :
  forall (parent : list (bytes * bytes)) (c : command),
    NoDup (map fst (c_envs c)) ->
    x_program (to_exec parent c) = c_program c /\
    x_args (to_exec parent c) = c_args c /\
    x_cwd (to_exec parent c) = c_cwd c /\
    forall k, exec_env (to_exec parent c) parent k = command_env c (lookup_last parent) k.
Proof. exact to_exec_spec. Qed.
Print Assumptions C67_conversion_preserves.

(** C67: variables set after the conversion win over those of the command and the inherited ones. *)
Theorem C67_later_variables_win :
  forall (parent : list (bytes * bytes)) (c : command) (l : list (bytes * bytes)) k v,
    NoDup (map fst (c_envs c)) -> NoDup (map fst l) -> In (k, v) l ->
    exec_env (x_env_extend parent (to_exec parent c) l) parent k = Some v.
Proof.
  intros parent c l k v ND NDl I. rewrite x_env_extend_env. apply env_extend_in; [exact I|].
  intros v' I'. clear - NDl I I'.
  induction l as [|[a b] l IH]; [contradiction|]. simpl in NDl. inversion NDl as [|? ? Hni ND']; subst.
  destruct I as [I|I], I' as [I'|I'].
  - congruence.
  - exfalso. apply Hni. apply in_map_iff. exists (k, v'). split; [simpl; congruence|exact I'].
  - exfalso. apply Hni. apply in_map_iff. exists (k, v). split; [simpl; congruence|exact I].
  - auto.
Qed.
Print Assumptions C67_later_variables_win.

Example C67_example :
  let c := {| c_program := lit "p"; c_args := [lit "a"]; c_envs := [(lit "X", Some (lit "1")); (lit "Y", None)];
              c_cwd := Some (lit "/d") |} in
  let parent := [(lit "Y", lit "y"); (lit "Z", lit "z")] in
  map (exec_env (to_exec parent c) parent) [lit "X"; lit "Y"; lit "Z"] = [Some (lit "1"); None; Some (lit "z")] /\
  exec_env (x_env_extend parent (to_exec parent c) [(lit "X", lit "2")]) parent (lit "X") = Some (lit "2").
Proof. split; vm_compute; reflexivity. Qed.

(** ** C79 *)

Lemma str_eqb_false_iff a b : a <> b -> str_eqb a b = false.
Proof. intros N. destruct (str_eqb a b) eqn:E; [|reflexivity]. apply str_eqb_eq in E. contradiction. Qed.

(** The environment of the fuzzer and of the harnesses it runs is that of
    cargo-test-fuzz with the coverage tool's variables, except for four variables. *)
Theorem C79_fuzzing_environment :
  forall (ui : bool) (o : opts) (llvm parent : list (bytes * bytes)),
    let e := env_extend llvm (lookup_last parent) in
    let h := fuzz_harness_env ui o llvm parent in
    h (lit "TEST_FUZZ") = Some (lit "1") /\ h (lit "TEST_FUZZ_WRITE") = Some (lit "0") /\
    h (lit "AFL_NO_UI") = (if ui then e (lit "AFL_NO_UI") else Some (lit "1")) /\
    h (lit "AFL_BENCH_UNTIL_CRASH") = (if o_run_until_crash o then Some (lit "1") else e (lit "AFL_BENCH_UNTIL_CRASH")) /\
    (forall k, ~ In k [lit "TEST_FUZZ"; lit "TEST_FUZZ_WRITE"; lit "AFL_NO_UI"; lit "AFL_BENCH_UNTIL_CRASH"] -> h k = e k).
Proof.
  intros ui o llvm parent e h.
  assert (T : forall k, h k = env_extend (fuzz_envs ui o) e k) by (intros k; unfold h, e; now rewrite fuzz_harness_env_eq, env_extend_app).
  split; [|split; [|split; [|split]]]; try (rewrite T, fuzz_lookup; eqb_consts); try reflexivity.
  - now destruct ui.
  - intros k N. rewrite T, fuzz_lookup. rewrite !str_eqb_false_iff by (intros ->; apply N; simpl; auto). now rewrite !andb_false_r.
Qed.
Print Assumptions C79_fuzzing_environment.

(** The environment of a harness started for displaying, replaying or coverage. *)
Theorem C79_entry_environment :
  forall (o : opts) (llvm parent : list (bytes * bytes)) (program : bytes),
    let e := env_extend llvm (lookup_last parent) in
    let h := entry_harness_env o llvm program parent in
    let asked (b : bool) k := h k = if b then Some (lit "1") else e k in
    h (lit "TEST_FUZZ") = Some (lit "1") /\ h (lit "TEST_FUZZ_WRITE") = Some (lit "0") /\ h (lit "AFL_QUIET") = Some (lit "1") /\
    asked (is_some (o_coverage o)) (lit "TEST_FUZZ_COVERAGE") /\ asked (is_some (o_display o)) (lit "TEST_FUZZ_DISPLAY") /\
    asked (is_some (o_replay o)) (lit "TEST_FUZZ_REPLAY") /\ asked (o_backtrace o) (lit "RUST_BACKTRACE") /\
    asked (o_pretty o) (lit "TEST_FUZZ_PRETTY_PRINT") /\
    (forall k, ~ In k [lit "TEST_FUZZ"; lit "TEST_FUZZ_WRITE"; lit "AFL_QUIET"; lit "TEST_FUZZ_COVERAGE"; lit "TEST_FUZZ_DISPLAY";
                       lit "TEST_FUZZ_REPLAY"; lit "RUST_BACKTRACE"; lit "TEST_FUZZ_PRETTY_PRINT"] -> h k = e k).
Proof.
  intros o llvm parent program e h asked.
  assert (T : forall k, h k = env_extend (entry_envs o) e k) by (intros k; unfold h, e; now rewrite entry_harness_env_eq, env_extend_app).
  unfold asked. repeat (split; [rewrite T, entry_lookup; eqb_consts; reflexivity|]).
  intros k N. rewrite T, entry_lookup. rewrite !str_eqb_false_iff by (intros ->; apply N; simpl; auto 10). now rewrite !andb_false_r.
Qed.
Print Assumptions C79_entry_environment.

Example C79_example :
  let parent := [(lit "AFL_NO_UI", lit "0"); (lit "PATH", lit "/bin")] in
  fuzz_harness_env true default_opts [] parent (lit "AFL_NO_UI") = Some (lit "0") /\
  fuzz_harness_env false default_opts [] parent (lit "AFL_NO_UI") = Some (lit "1") /\
  entry_harness_env default_opts [] (lit "p") parent (lit "AFL_QUIET") = Some (lit "1") /\
  entry_harness_env default_opts [] (lit "p") parent (lit "PATH") = Some (lit "/bin") /\
  entry_harness_env default_opts [] (lit "p") parent (lit "RUST_BACKTRACE") = None.
Proof. repeat split; vm_compute; reflexivity. Qed.
