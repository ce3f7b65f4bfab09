(** C13 and C89, continued: the executables with targets, and the environment of fuzzers. *)
From Coq Require Import String List Ascii Bool Arith NArith Lia.
From stdpp Require Import gmap strings.
From Verif Require Import Base Utf8 Env Opts Targets Fs Meta FuzzCmd FuzzEnv Build Run RunFacts PropsHarness.
Import ListNotations.
Local Open Scope nat_scope.

(** * Specification *)

(** [l]: the executables of [xs] whose listing has targets, in order, each with all of them. *)
Inductive with_targets {E} (listing : E -> bytes) : list E -> list (E * list str) -> Prop :=
  | wt_nil : with_targets listing [] []
  | wt_none x xs l : targets (listing x) = Ret [] -> with_targets listing xs l -> with_targets listing (x :: xs) l
  | wt_some x t ts xs l : targets (listing x) = Ret (t :: ts) -> with_targets listing xs l -> with_targets listing (x :: xs) ((x, t :: ts) :: l).

(** The first of [xs] whose listing cannot be read, if there is one, and why. *)
Inductive unreadable {E} (listing : E -> bytes) : list E -> str -> Prop :=
  | ur_here x xs e : targets (listing x) = Err e -> unreadable listing (x :: xs) e
  | ur_later x xs e ts : targets (listing x) = Ret ts -> unreadable listing xs e -> unreadable listing (x :: xs) e.

(** * Proofs *)

Lemma targets_no_panic s : targets s <> Panic.
Proof.
  unfold targets. induction (split_inclusive s) as [|p ps IH]; [discriminate|]. cbn [targets_loop]. destruct (valid_utf8 p); [|discriminate].
  destruct (target_of_line (chomp p)); [|exact IH]. destruct (targets_loop ps); [discriminate|discriminate|contradiction].
Qed.

(** C13: the executables considered are those with targets, with all their targets, in
    order; the command fails exactly if some listing cannot be read. *)
Theorem C13_executables :
  forall (E : Type) (listing : E -> bytes) (xs : list E),
    (forall l, executable_targets listing xs = Ret l <-> with_targets listing xs l) /\
    (forall e, executable_targets listing xs = Err e <-> unreadable listing xs e) /\
    executable_targets listing xs <> Panic.
Proof.
  intros E listing. unfold executable_targets. induction xs as [|x xs IH].
  { repeat split; try discriminate.
    - intros [= <-]. constructor.
    - intros H. now inversion H.
    - intros H. inversion H. }
  destruct IH as (I1 & I2 & I3). cbn [mapM]. pose proof (targets_no_panic (listing x)) as NP.
  destruct (targets (listing x)) as [ts|e|] eqn:T; [| |contradiction].
  - cbn [bind]. destruct (mapM _ xs) as [l|e|] eqn:M; cbn [bind] in *.
    + cbn [List.filter snd]. repeat split; try discriminate.
      * intros [= <-]. destruct ts as [|t ts]; [apply wt_none|apply wt_some]; auto; apply I1; reflexivity.
      * intros H. inversion H as [|? ? ? T' W|? t ts' ? ? T' W]; subst; rewrite T' in T; injection T as <-; apply I1 in W; now injection W as ->.
      * intros H. inversion H as [|? ? ? ? T' U]; subst; [congruence|]. apply I2 in U. discriminate.
    + repeat split; try discriminate.
      * intros H. inversion H as [|? ? ? T' W|? t ts' ? ? T' W]; subst; apply I1 in W; discriminate.
      * intros [= <-]. eapply ur_later; [exact T|]. now apply I2.
      * intros H. inversion H as [|? ? ? ? T' U]; subst; [congruence|]. apply I2 in U. now injection U as ->.
    + contradiction.
  - cbn [bind]. repeat split; try discriminate.
    + intros H. inversion H; congruence.
    + intros [= <-]. now constructor.
    + intros H. inversion H; congruence.
Qed.
Print Assumptions C13_executables.

(** C13: that is what an invocation uses: it asks the executables one after another, up to
    the first failure, changes nothing, and goes on with those with targets, of which the
    given name selects (C12). *)
Theorem C13_asked :
  forall (w : world) (o : opts) (xs : list executable) (m m' : fs) (t : list act) (r : rres (list (executable * list str))),
    p_targets w o xs m = (m', t, r) ->
    m' = m /\ (exists n, t = map AListTests (firstn n xs)) /\
    match executable_targets (w_listing w) xs with
    | Ret l => t = map AListTests xs /\
               r = ROk (match o_ztarget o with Some pat => filter_executable_targets (o_exact o) pat l | None => l end)
    | Err e => r = RErr e
    | Panic => False
    end.
Proof.
  intros w o xs m m' t r E. unfold p_targets in E. unfold executable_targets.
  set (f := fun x : executable => pbind (pact (AListTests x)) (fun _ => pbind (plift (targets (w_listing w x))) (fun ts => pret (x, ts)))) in E.
  set (g := fun e : executable => bind (targets (w_listing w e)) (fun ts => Ret (e, ts))).
  assert (H : forall (m : fs), match pmap f xs m with (m1, t1, r1) =>
     m1 = m /\ (exists n, t1 = map AListTests (firstn n xs)) /\
     match mapM g xs with Ret ls => t1 = map AListTests xs /\ r1 = ROk ls | Err e => r1 = RErr e | Panic => False end end).
  { clear E m m' t r. induction xs as [|x xs IH]; intros m; [cbn; repeat split; now exists 0|].
    cbn [pmap mapM]. unfold pbind at 1. unfold f at 1. unfold g at 1. unfold pbind at 1, pact. cbn [app]. unfold pbind at 1, plift.
    pose proof (targets_no_panic (w_listing w x)) as NP. destruct (targets (w_listing w x)) as [ts|e|]; [| |contradiction].
    - cbn [pret bind app]. unfold pret at 1. unfold pbind. specialize (IH m). destruct (pmap f xs m) as [[m1 t1] r1]. destruct IH as (-> & (n & ->) & IH).
      destruct (mapM g xs) as [ls|e|]; [| |destruct IH].
      + destruct IH as (Q & ->). cbn [bind pret app]. unfold pret. rewrite app_nil_r. repeat split.
        * exists (S n). reflexivity.
        * cbn [map]. now rewrite Q.
      + subst r1. cbn [bind]. repeat split. exists (S n). reflexivity.
    - cbn [bind]. repeat split. now exists 1. }
  specialize (H m). unfold pbind in E. destruct (pmap f xs m) as [[m1 t1] r1]. destruct H as (-> & (n & Ht) & H). fold g.
  destruct (mapM g xs) as [ls|e|]; [| |destruct H].
  - destruct H as (Q & ->). unfold pret in E. injection E as <- <- <-. rewrite app_nil_r. cbn [bind]. repeat split; [now exists n|exact Q].
  - subst r1. injection E as <- <- <-. cbn [bind]. repeat split. now exists n.
Qed.
Print Assumptions C13_asked.

Example C13_example_executables :
  let listing n := match n with
                   | 0 => lit "a_fuzz__::entry: test" ++ [LF]
                   | 1 => lit "plain: test" ++ [LF]
                   | 2 => lit "b_fuzz__::entry: test" ++ [LF] ++ lit "c_fuzz__::entry: test"
                   | _ => [Ascii.ascii_of_nat 255]
                   end in
  executable_targets listing [0; 1; 2] = Ret [(0, [lit "a"]); (2, [lit "b"; lit "c"])] /\
  executable_targets listing [0; 3; 2] = Err (lit "Could not get output").
Proof. vm_compute. auto. Qed.

(** C89: all fuzzers of an invocation have the same environment: that of cargo-test-fuzz
    with the coverage tool's variables, except that recording is off, that the user
    interface is off exactly with --no-ui or --exit-code, and that the fuzzer stops at the
    first crash exactly with --run-until-crash (unless the caller's environment says so). *)
Theorem C89_environment :
  forall (o : opts) (cpus n i_task : nat) (llvm parent : list (bytes * bytes)),
    let e := env_extend llvm (lookup_last parent) in
    let h := fuzzer_env (adjust o) (fuzz_config (adjust o) cpus n i_task) llvm parent in
    h (lit "TEST_FUZZ") = Some (lit "1") /\ h (lit "TEST_FUZZ_WRITE") = Some (lit "0") /\
    h (lit "AFL_NO_UI") = (if o_no_ui o || o_exit_code o then Some (lit "1") else e (lit "AFL_NO_UI")) /\
    h (lit "AFL_BENCH_UNTIL_CRASH") = (if o_run_until_crash o then Some (lit "1") else e (lit "AFL_BENCH_UNTIL_CRASH")) /\
    (forall k, ~ In k [lit "TEST_FUZZ"; lit "TEST_FUZZ_WRITE"; lit "AFL_NO_UI"; lit "AFL_BENCH_UNTIL_CRASH"] -> h k = e k).
Proof.
  intros o cpus n i_task llvm parent e h.
  destruct (C79_fuzzing_environment (negb (o_no_ui (adjust o))) (adjust o) llvm parent) as (A & B & C & D & E).
  change (fuzz_harness_env (negb (o_no_ui (adjust o))) (adjust o) llvm parent) with h in *. fold e in C, D, E.
  split; [exact A|]. split; [exact B|]. rewrite C, D. unfold adjust. destruct (o_exit_code o); cbn.
  - rewrite orb_true_r. auto.
  - rewrite orb_false_r. destruct (o_no_ui o); auto.
Qed.
Print Assumptions C89_environment.

(** The configuration is the one the command lines of C89_parallel_fuzzers are computed with. *)
Theorem C89_configuration :
  forall (w : world) (o : opts) (fl : list (executable * str)) (n i i_task : nat),
    start_command w (adjust o) fl n i (i_task <? List.length fl)
    = option_map (fun xt => fuzz_args (w_checks w) (adjust o) (fuzz_config (adjust o) n (List.length fl) i_task)
                                      (q_td (w_cargo w)) (w_id w) (as_exe (fst xt)) (snd xt)) (nth_error fl i) /\
    fc_ui (fuzz_config (adjust o) n (List.length fl) i_task) = negb (o_no_ui o || o_exit_code o).
Proof.
  intros. split; [reflexivity|]. cbn. unfold adjust. destruct (o_exit_code o); cbn; [now rewrite orb_true_r|now rewrite orb_false_r].
Qed.
Print Assumptions C89_configuration.
