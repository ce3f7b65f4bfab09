(** C89: the fuzzers an invocation starts. *)
From Coq Require Import String List Ascii Bool Arith NArith Lia.
From stdpp Require Import gmap strings.
From Verif Require Import Base Utf8 Lossy Decimal Env Dirs Opts Targets Semver Sha1 Fs Write Meta FuzzCmd Build AutoGen Run RunFacts PropsRun PropsRun2.
From Verif Require Consolidate Entries Lines Sched Ui PropsSched PropsFuzzCmd.
Import ListNotations.
Local Open Scope nat_scope.

(** The command line of a fuzzer for target [tg] of executable [x]: [resume]: nothing new is
    given to it, [limit]: its time limit in seconds. *)
Definition fuzzer_for (w : world) (o : opts) (x : executable) (tg : str) (resume : bool) (limit : option N) (args : list str) : Prop :=
  exists corpus output lim hang,
    dir_from_target (q_td (w_cargo w)) (w_id w) Corpus (ex_name x) tg = Ret corpus /\
    dir_from_target (q_td (w_cargo w)) (w_id w) Output (ex_name x) tg = Ret output /\
    match limit with None => lim = [] | Some s => exists d, numeral s d /\ lim = [lit "-V"; d] end /\
    match o_timeout o with None => hang = [] | Some s => exists d, numeral (s * 1000) d /\ hang = [lit "-t"; d] end /\
    args = [lit "-c-"; lit "-i"; if resume then lit "-" else lossy (path_text corpus); lit "-o"; lossy (path_text output); lit "-M"; lit "default"]
           ++ lim ++ hang ++ o_zzargs o ++ [lit "--"; lossy (ex_path x); lit "--exact"; tg ++ lit "_fuzz__::entry"].

Lemma fuzzer_for_args w o c x tg args :
  (forall s, o_timeout o = Some s -> s * 1000 < 2 ^ 64)%N ->
  fuzz_args (w_checks w) o c (q_td (w_cargo w)) (w_id w) (as_exe x) tg = Ret args ->
  fuzzer_for w o x tg (o_resume o || negb (fc_first c)) (if fc_sufficient c then o_max_total_time o else Some (o_slice o)) args.
Proof.
  intros T E. destruct (PropsFuzzCmd.C45_arguments_exact (w_checks w) o c (q_td (w_cargo w)) (w_id w) (as_exe x) tg T)
    as (args' & input & out & limit & hang & E' & I & (d & D & ->) & L & H & A).
  rewrite E in E'. assert (args' = args) as -> by (now inversion E'). clear E'.
  exists (corpus_dir (q_td (w_cargo w)) (w_id w) (as_exe x, tg)), d, limit, hang.
  split; [apply dir_from_target_eq|]. split; [exact D|]. split; [|split].
  - destruct L as [(-> & s & N & ->)|[(-> & m & s & -> & N & ->)|(-> & -> & ->)]]; cbn; eauto.
  - destruct H as [(-> & ->)|(t & s & -> & N & ->)]; eauto.
  - rewrite A. assert (IN : input = if o_resume o || negb (fc_first c) then lit "-" else lossy (path_text (corpus_dir (q_td (w_cargo w)) (w_id w) (as_exe x, tg)))).
    { destruct I as [([->| ->] & ->)|(-> & -> & d' & D' & ->)]; [reflexivity|now rewrite orb_true_r|]. cbn [orb negb].
      rewrite corpus_dir_eq in D'. now inversion D'. }
    rewrite IN. reflexivity.
Qed.

(** Every fuzzer the parallel loop starts fuzzes one of the targets reached, in its own output
    directory, with its corpus as input exactly the first time (and never with --resume), for a
    slice if there are fewer cpus than targets, else for the time given. *)
Theorem C89_parallel_fuzzers :
  forall (w : world) (o : opts) (m m' : fs) (t : list act) (r : rres unit) (os : list Sched.out),
    run w o m = (m', t, r) -> In (AParallel os) t -> (forall s, o_timeout o = Some s -> s * 1000 < 2 ^ 64)%N ->
    exists (fl : list (executable * str)) (n : nat),
      (forall x tg, In (x, tg) fl <-> reached w o t x tg) /\
      forall before i e first after, os = before ++ Sched.OStart i e first :: after ->
        exists x tg args,
          nth_error fl i = Some (x, tg) /\ e = i /\
          start_command w (adjust o) fl n e first = Some (Ret args) /\
          fuzzer_for w o x tg
            (o_resume o || existsb (fun ev => match ev with Sched.OStart j _ _ => j =? i | _ => false end) before)
            (if List.length fl <=? n then o_max_total_time o else Some (o_slice o)) args.
Proof.
  intros w o m m' t r os E I T.
  destruct (C42_fuzzed_targets w o m m' t r (AParallel os) E I eq_refl) as (fl & F & n & res & P & R).
  exists fl, n. split; [exact F|]. intros before i e first after S. cbv zeta in R.
  pose proof (PropsSched.C52_events_of_running _ _ _ _ _ _ _ _ R S) as (-> & Li & _). unfold Sched.k_n in Li. cbn [Sched.k_names] in Li. rewrite map_length in Li.
  destruct (nth_error fl i) as [[x tg]|] eqn:N; [|apply nth_error_None in N; lia].
  pose proof (adjust_same o) as AS.
  destruct (C44_exit_code_implies_no_ui o) as (_ & A1 & A2 & A3 & A4 & A5). cbv zeta in A1, A2, A3, A4, A5.
  assert (T' : forall s, o_timeout (adjust o) = Some s -> (s * 1000 < 2 ^ 64)%N) by (intros s Es; apply T; congruence).
  set (c := {| fc_ui := negb (o_no_ui (adjust o)); fc_sufficient := List.length fl <=? n; fc_first := first |}).
  destruct (PropsFuzzCmd.C45_arguments_exact (w_checks w) (adjust o) c (q_td (w_cargo w)) (w_id w) (as_exe x) tg T') as (args & ? & ? & ? & ? & FA & _).
  exists x, tg, args. split; [reflexivity|]. split; [reflexivity|]. split; [unfold start_command; rewrite N; cbn [option_map fst snd]; f_equal; exact FA|].
  pose proof (fuzzer_for_args _ _ _ _ _ _ T' FA) as (co & ou & li & ha & D1 & D2 & L & H & A).
  exists co, ou, li, ha. split; [exact D1|]. split; [exact D2|].
  assert (R1 : o_resume (adjust o) = o_resume o /\ o_max_total_time (adjust o) = o_max_total_time o /\ o_slice (adjust o) = o_slice o /\ o_timeout (adjust o) = o_timeout o /\ o_zzargs (adjust o) = o_zzargs o)
    by (repeat split; congruence).
  destruct R1 as (R1 & R2 & R3 & R4 & R5). rewrite R2, R3 in L. rewrite R4 in H. rewrite R1, R5 in A. cbn [c fc_sufficient fc_first] in L, A.
  split; [exact L|]. split; [exact H|].
  assert (B : negb first = existsb (fun ev => match ev with Sched.OStart j _ _ => j =? i | _ => false end) before).
  { pose proof (PropsSched.C55_first_run_exact _ _ _ _ _ _ _ _ _ _ R S) as FR. destruct first; cbn [negb].
    - symmetry. apply not_true_iff_false. intros X. apply existsb_exists in X as (ev & Iv & Q). destruct ev; try discriminate. apply Nat.eqb_eq in Q. subst.
      exact (proj1 FR eq_refl _ _ Iv).
    - symmetry. destruct (existsb _ before) eqn:X; [reflexivity|]. exfalso. assert (FT : false = true); [|discriminate]. apply FR. intros e' f' Iv.
      apply not_true_iff_false in X. apply X. apply existsb_exists. exists (Sched.OStart i e' f'). split; [exact Iv|apply Nat.eqb_refl]. }
  rewrite <- B. exact A.
Qed.
Print Assumptions C89_parallel_fuzzers.

(** The fuzzer in the foreground likewise. *)
Theorem C89_foreground_fuzzer :
  forall (w : world) (o : opts) (m m' : fs) (t : list act) (r : rres unit) (args : list str),
    run w o m = (m', t, r) -> In (AForeground args) t -> (forall s, o_timeout o = Some s -> s * 1000 < 2 ^ 64)%N ->
    exists x tg, (forall y u, reached w o t y u <-> y = x /\ u = tg) /\ fuzzer_for w o x tg (o_resume o) (o_max_total_time o) args.
Proof.
  intros w o m m' t r args E I T.
  destruct (C42_fuzzed_targets w o m m' t r (AForeground args) E I eq_refl) as (fl & F & x & tg & -> & _ & _ & FA).
  exists x, tg. split.
  - intros y u. rewrite <- F. cbn [In]. split; [intros [K|[]]; now inversion K|]. intros [-> ->]. now left.
  - destruct (C44_exit_code_implies_no_ui o) as (_ & A1 & A2 & A3 & A4 & A5). cbv zeta in A1, A2, A3, A4, A5.
    assert (T' : forall s, o_timeout (adjust o) = Some s -> (s * 1000 < 2 ^ 64)%N) by (intros s Es; apply T; congruence).
    pose proof (fuzzer_for_args w (adjust o) _ x tg _ T' FA) as (co & ou & li & ha & D1 & D2 & L & H & A).
    exists co, ou, li, ha. split; [exact D1|]. split; [exact D2|].
    assert (R1 : o_resume (adjust o) = o_resume o /\ o_max_total_time (adjust o) = o_max_total_time o /\ o_timeout (adjust o) = o_timeout o /\ o_zzargs (adjust o) = o_zzargs o)
      by (repeat split; congruence).
    destruct R1 as (R1 & R2 & R4 & R5). cbn [fc_sufficient fc_first] in L, A. rewrite R2 in L. rewrite R4 in H. rewrite R1, R5, orb_false_r in A. auto.
Qed.
Print Assumptions C89_foreground_fuzzer.

(** Two targets on one cpu: the first gets its corpus, the second too, and then the first
    resumes, each for a slice. *)
Definition ex_one_cpu : opts :=
  {| o_backtrace := false; o_consolidate := false; o_consolidate_all := false; o_coverage := None;
     o_cpus := Some 1; o_display := None; o_exact := false; o_exit_code := false; o_list := false;
     o_max_total_time := None; o_no_run := false; o_no_ui := true; o_persistent := false;
     o_pretty := false; o_replay := None; o_reset := false; o_reset_all := false; o_resume := false;
     o_run_until_crash := false; o_slice := 60%N; o_timeout := Some 2%N;
     o_features := []; o_manifest_path := None; o_no_default_features := false; o_package := None;
     o_release := false; o_test := None; o_verbose := false; o_ztarget := None; o_zzargs := [lit "-z"] |}.
Definition ex_session_world : world := ex_world ex_afl_ok (map PropsSched.ex_input [[]; [PropsSched.ex_end 0]; []; [PropsSched.ex_end 1]; []]).
Definition ex_k : executable :=
  {| ex_path := lit "/t/k-1"; ex_name := lit "k"; ex_test_fuzz := Some ex_self; ex_afl := Some ex_afl_v |}.
Definition ex_starts (t : list act) : list Sched.out :=
  List.concat (map (fun a => match a with
                             | AParallel os => List.filter (fun e => match e with Sched.OStart _ _ _ => true | _ => false end) os
                             | _ => [] end) t).
Example C89_example :
  let fl := [(ex_k, lit "f"); (ex_k, lit "g")] in
  let line tg inp := Some (Ret [lit "-c-"; lit "-i"; inp; lit "-o"; lit "/t/afl/output/k::" ++ tg; lit "-M"; lit "default"; lit "-V"; lit "60";
                                lit "-t"; lit "2000"; lit "-z"; lit "--"; lit "/t/k-1"; lit "--exact"; tg ++ lit "_fuzz__::entry"]) in
  match run ex_session_world ex_one_cpu ∅ with (_, t, _) => ex_starts t end
    = [Sched.OStart 0 0 true; Sched.OStart 1 1 true; Sched.OStart 0 0 false] /\
  start_command ex_session_world (adjust ex_one_cpu) fl 1 0 true = line (lit "f") (lit "/t/corpus/k::f") /\
  start_command ex_session_world (adjust ex_one_cpu) fl 1 1 true = line (lit "g") (lit "/t/corpus/k::g") /\
  start_command ex_session_world (adjust ex_one_cpu) fl 1 0 false = line (lit "f") (lit "-").
Proof. vm_compute. repeat split; reflexivity. Qed.
