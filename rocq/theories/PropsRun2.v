(** C42-C44, continued: which commands an invocation runs, in which order, on which targets. *)
From Coq Require Import String List Ascii Bool Arith NArith Lia.
From stdpp Require Import gmap strings.
From Verif Require Import Base Utf8 Lossy Env Dirs Opts Targets Semver Sha1 Fs Write Meta FuzzCmd Build AutoGen Run RunFacts PropsRun.
From Verif Require Decimal Consolidate Entries Lines Sched Ui PropsSched PropsFuzzCmd.
Import ListNotations.
Local Open Scope nat_scope.

(** --exit-code implies --no-ui and changes no other option. *)
Theorem C44_exit_code_implies_no_ui : forall o : opts,
  let o' := adjust o in
  (o_no_ui o' = true <-> o_no_ui o = true \/ o_exit_code o = true) /\
  (o_backtrace o', o_consolidate o', o_consolidate_all o', o_coverage o', o_cpus o', o_display o') =
  (o_backtrace o, o_consolidate o, o_consolidate_all o, o_coverage o, o_cpus o, o_display o) /\
  (o_exact o', o_exit_code o', o_features o', o_list o', o_manifest_path o', o_max_total_time o') =
  (o_exact o, o_exit_code o, o_features o, o_list o, o_manifest_path o, o_max_total_time o) /\
  (o_no_default_features o', o_no_run o', o_package o', o_persistent o', o_pretty o', o_release o') =
  (o_no_default_features o, o_no_run o, o_package o, o_persistent o, o_pretty o, o_release o) /\
  (o_replay o', o_reset o', o_reset_all o', o_resume o', o_run_until_crash o', o_slice o') =
  (o_replay o, o_reset o, o_reset_all o, o_resume o, o_run_until_crash o, o_slice o) /\
  (o_test o', o_timeout o', o_verbose o', o_ztarget o', o_zzargs o') =
  (o_test o, o_timeout o, o_verbose o, o_ztarget o, o_zzargs o).
Proof.
  intros o. unfold adjust. destruct (o_exit_code o) eqn:E; cbn; repeat split; auto; rewrite ?E; auto; try (intros [H|H]; congruence); intros H; auto.
Qed.
Print Assumptions C44_exit_code_implies_no_ui.

(** The target is one of an executable that was asked for its tests, listed by it, and selected. *)
Definition reached (w : world) (o : opts) (t : list act) (x : executable) (tg : str) : Prop :=
  In (AListTests x) t /\ (exists ts, targets (w_listing w x) = Ret ts /\ In tg ts) /\
  match o_ztarget o with
  | None => True
  | Some pat => if o_exact o then tg = pat else exists a b, tg = a ++ pat ++ b
  end.

Lemma prep_no_job {t j} {a : act} : Forall prep t -> act_job a = Some j -> ~ In a t.
Proof. intros F J I. rewrite Forall_forall in F. apply elem_of_list_In in I. apply F in I. unfold prep in I. congruence. Qed.
Lemma job_no_prep {t j} {a : act} : Forall (of_job j) t -> act_job a <> Some j -> ~ In a t.
Proof. intros F J I. rewrite Forall_forall in F. apply elem_of_list_In in I. apply F in I. unfold of_job in I. congruence. Qed.

Lemma reached_prepare w o m m1 t1 t2 j l : p_prepare w (adjust o) m = (m1, t1, ROk l) -> Forall (of_job j) t2 ->
  forall x tg, (exists ts, In (x, ts) l /\ In tg ts) <-> reached w o (t1 ++ t2) x tg.
Proof.
  intros P F x tg. pose proof (prepare_targets _ _ _ _ _ _ P x tg) as PT. unfold selected, selects in PT.
  pose proof (adjust_same o) as (_ & _ & _ & _ & _ & _ & _ & _ & _ & _ & AE & AZ & _). rewrite AE, AZ in PT. rewrite PT. unfold reached.
  rewrite in_app_iff. assert (N : ~ In (AListTests x) t2) by (apply (job_no_prep F); discriminate). tauto.
Qed.

(** ** Coverage *)

Lemma pfor_entries_no w o b fl : within (fun a => match a with ATarget _ _ _ _ | AHeading _ => True | _ => False end) (pfor (fun xt => pbind (p_heading w b (snd xt)) (fun _ => p_entries w o xt)) fl).
Proof.
  apply within_for. intros [x tg]. apply within_bind.
  { unfold p_heading. destruct b; [|apply within_ret]. apply within_bind; [apply within_lift|]. intros d. now apply within_act. }
  intros _. unfold p_entries. destruct (chosen_object o); [|apply within_ret].
  apply within_bind; [apply within_lift|]. intros [[rct raw] dir]. apply within_bind; [now apply within_act|]. intros _. apply within_lift.
Qed.

Definition report_command (o : opts) : list str :=
  [lit "llvm-cov"; lit "report"; lit "--lcov"; lit "--output-path=lcov.info"] ++
  match o_manifest_path o with Some p => [lit "--manifest-path"; p] | None => [] end.

(** With --coverage, old coverage data are removed before any target is run and the report is
    made after all of them; otherwise neither happens. *)
Theorem C42_coverage_report :
  forall (w : world) (o : opts) (m m' : fs) (t : list act),
    run w o m = (m', t, ROk tt) -> asks o JShow ->
    exists before shown,
      (forall a, In a before -> act_job a = None) /\
      (forall a, In a shown -> (exists x tg dir es, a = ATarget x tg dir es) \/ exists s, a = AHeading s) /\
      t = match o_coverage o with
          | None => before ++ shown
          | Some _ => before ++ AClean :: shown
                      ++ match w_lcov w with Some true => [ANote (lit "Warning: Overwriting lcov.info")] | _ => [] end
                      ++ [AReport (report_command o); ANote (lit "Wrote lcov to `lcov.info`. To view it as html, try running:" ++ [LF; LF]
                                                         ++ lit "    genhtml lcov.info --output-directory coverage && open coverage/index.html" ++ [LF])]
          end.
Proof.
  intros w o m m' t E A. apply run_eq in E as (r0 & E & R).
  assert (r0 = ROk tt) by (destruct r0 as [[]|e| |n|]; try congruence; destruct (o_exit_code o); congruence). subst r0. clear R.
  pose proof (C44_exit_code_implies_no_ui o) as AD. cbv zeta in AD. destruct AD as (_ & AD1 & AD2 & _ & AD4 & _).
  injection AD1 as _ _ _ AC _ _. injection AD2 as _ _ _ _ AM _.
  apply adjust_asks in A. destruct A as (L & N & C & S0).
  apply run_shape in E as [(_ & _ & _ & e & K)|[(_ & _ & _ & K)|(_ & t1 & t2 & l & P & D & ->)]]; [congruence|exfalso; now apply (K tt)|].
  apply prepare_within in P. exists t1.
  apply dispatch_cases in D as [(L' & _)|[(_ & N' & _)|[(_ & _ & C' & D)|[(_ & _ & _ & C' & D)|[(_ & _ & _ & _ & _ & D)|(_ & _ & _ & _ & S' & D)]]]]]; try congruence.
  - exfalso. apply C. apply clear_true. now left.
  - exfalso. apply C. apply clear_true. now right.
  - assert (FB : forall a, In a t1 -> act_job a = None).
    { intros a I. rewrite Forall_forall in P. apply P. now apply elem_of_list_In. }
    unfold p_show in D. rewrite AC in D.
    apply pbind_inv in D as [(m1 & u1 & u2 & a & X & D & ->)|(r1 & _ & _ & K & _)]; [|exfalso; now apply (K tt)].
    apply pbind_inv in D as [(m3 & u3 & u4 & fl & X3 & D & ->)|(r1 & _ & _ & K & _)]; [|exfalso; now apply (K tt)].
    injection X3 as _ <- _.
    apply pbind_inv in D as [(m5 & u5 & u6 & b & X5 & D & ->)|(r1 & _ & _ & K & _)]; [|exfalso; now apply (K tt)].
    exists u5. split; [exact FB|]. split.
    { apply pfor_entries_no in X5. intros c I. rewrite Forall_forall in X5. apply elem_of_list_In in I. apply X5 in I.
      destruct c; try contradiction; eauto 6. }
    destruct (o_coverage o); cbn [is_some] in X, D.
    + apply pbind_inv in X as [(m7 & u7 & u8 & c & X7 & X & ->)|(r1 & _ & _ & K & _)]; [|exfalso; now apply (K a)].
      injection X7 as _ <- _. assert (u8 = []) as -> by (destruct (w_clean w); injection X as _ <- _; reflexivity).
      unfold p_report in D. destruct (w_lcov w) as [ex|]; [|discriminate D].
      apply pbind_inv in D as [(mn & un & un' & dn & Xn & D & ->)|(r1 & _ & _ & K & _)]; [|exfalso; now apply (K tt)].
      assert (un = if ex then [ANote (lit "Warning: Overwriting lcov.info")] else []) as -> by (destruct ex; injection Xn as _ <- _; reflexivity).
      apply pbind_inv in D as [(m9 & u9 & u10 & d & X9 & D & ->)|(r1 & _ & _ & K & _)]; [|exfalso; now apply (K tt)].
      injection X9 as _ <- _. assert (u10 = [ANote wrote_lcov]) as -> by (destruct (w_report w _); inversion D; reflexivity).
      unfold report_args, flag_opt. rewrite AM. unfold report_command. cbn [app map]. destruct ex, (o_manifest_path o); reflexivity.
    + injection X as _ <- _. injection D as _ <-. now rewrite app_nil_r.
  - exfalso. apply show_bool in S0. congruence.
Qed.
Print Assumptions C42_coverage_report.

(** If the old data cannot be removed, no target is run. *)
Theorem C42_clean_failure :
  forall (w : world) (o : opts) (m m' : fs) (t : list act) (r : rres unit),
    run w o m = (m', t, r) -> asks o JShow -> o_coverage o <> None -> w_clean w = false ->
    (forall x tg dir es, ~ In (ATarget x tg dir es) t) /\ r <> ROk tt.
Proof.
  intros w o m m' t r E A CO CL. pose proof E as E'. apply run_eq in E as (r0 & E & R).
  pose proof (adjust_same o) as (AC & _).
  apply adjust_asks in A. destruct A as (L & N & C & S0).
  apply run_shape in E as [(_ & _ & -> & e & K)|[(_ & _ & P & K)|(_ & t1 & t2 & l & P & D & ->)]].
  - split; [intros x tg dir es []|]. rewrite R, K. destruct (o_exit_code o); discriminate.
  - apply prepare_within in P. split; [intros x tg dir es; eapply prep_no_job; [exact P|reflexivity]|].
    rewrite R. destruct r0 as [[]|e| |n|]; try discriminate; [exfalso; now apply (K tt)|destruct (o_exit_code o); discriminate].
  - apply prepare_within in P.
    apply dispatch_cases in D as [(L' & _)|[(_ & N' & _)|[(_ & _ & C' & D)|[(_ & _ & _ & C' & D)|[(_ & _ & _ & _ & _ & D)|(_ & _ & _ & _ & S' & D)]]]]]; try congruence.
    + exfalso. apply C. apply clear_true. now left.
    + exfalso. apply C. apply clear_true. now right.
    + unfold p_show in D. rewrite AC in D. destruct (o_coverage o); [|congruence]. cbn [is_some] in D. rewrite CL in D.
      unfold pbind at 1, pbind at 1 in D. cbn in D. injection D as _ <- <-. split.
      * intros x tg dir es I. apply in_app_iff in I as [I|I]; [revert I; eapply prep_no_job; [exact P|reflexivity]|].
        destruct I as [I|[]]; discriminate.
      * rewrite R. destruct (o_exit_code o); discriminate.
    + exfalso. apply show_bool in S0. congruence.
Qed.
Print Assumptions C42_clean_failure.

(** ** Clearing *)

(** Consolidating and resetting work on exactly the targets reached, under the names of their
    executables. *)
Theorem C42_cleared_targets :
  forall (w : world) (o : opts) (m m' : fs) (t : list act) (r : rres unit),
    run w o m = (m', t, r) -> In AConsolidate t \/ In AReset t ->
    exists l m1 h x,
      (forall n tg, (exists ts, In (n, ts) l /\ In tg ts) <-> exists y, ex_name y = n /\ reached w o t y tg) /\
      Consolidate.consolidate_or_reset (w_io w) (q_td (w_cargo w)) (w_id w) (adjust o) l m = Some (m1, h, x) /\
      m' = m1 /\ (r = ROk tt <-> x = Ret tt).
Proof.
  intros w o m m' t r E I. apply run_eq in E as (r0 & E & R).
  assert (NP : forall t, Forall prep t -> ~ (In AConsolidate t \/ In AReset t)).
  { intros u F [K|K]; revert K; (eapply prep_no_job; [exact F|reflexivity]). }
  assert (NJ : forall t j, Forall (of_job j) t -> j <> JClear -> ~ (In AConsolidate t \/ In AReset t)).
  { intros u j F N [K|K]; revert K; apply (job_no_prep F); cbn; congruence. }
  assert (PC : forall b l m2 t2 r2, p_clear w (adjust o) b l m = (m2, t2, r2) ->
     exists m1 h x, Consolidate.seq (if b then Consolidate.consolidate (w_io w) (q_td (w_cargo w)) (w_id w) (adjust o) (by_name l) m else (m, [], Ret tt))
                      (Consolidate.reset (w_io w) (q_td (w_cargo w)) (w_id w) (adjust o) (by_name l)) = (m1, h, x) /\
       m2 = m1 /\ r2 = match x with Ret _ => ROk tt | Err e => RErr e | Panic => RPanic end).
  { intros b l m2 t2 r2 D. unfold p_clear in D. destruct b.
    - unfold pbind, p_io in D. destruct (Consolidate.consolidate _ _ _ _ _ m) as [[m3 h3] [u|e|]]; cbn [Consolidate.seq].
      + destruct (Consolidate.reset _ _ _ _ _ m3) as [[m4 h4] [v|e|]]; injection D as <- <- <-; eauto 10.
      + injection D as <- <- <-; eauto 10.
      + injection D as <- <- <-; eauto 10.
    - unfold pbind, pret, p_io in D. cbn [Consolidate.seq].
      destruct (Consolidate.reset _ _ _ _ _ m) as [[m4 h4] [v|e|]]; injection D as <- <- <-; eauto 10. }
  apply run_shape in E as [(_ & _ & -> & _)|[(_ & _ & P & _)|(_ & t1 & t2 & l & P & D & ->)]].
  - destruct I as [[]|[]].
  - apply prepare_within in P. exfalso. exact (NP _ P I).
  - assert (I2 : In AConsolidate t2 \/ In AReset t2).
    { rewrite !in_app_iff in I. apply prepare_within in P. specialize (NP _ P). tauto. }
    assert (FIN : forall x : outcome unit, r0 = match x with Ret _ => ROk tt | Err e => RErr e | Panic => RPanic end -> (r = ROk tt <-> x = Ret tt)).
    { intros x Hr. subst r0. rewrite R. destruct x as [[]|e|]; [tauto| |split; discriminate].
      split; [|discriminate]. destruct (o_exit_code o); discriminate. }
    assert (BN : Forall (of_job JClear) t2 -> forall n tg, (exists ts, In (n, ts) (by_name l) /\ In tg ts) <->
        exists y, ex_name y = n /\ reached w o (t1 ++ t2) y tg).
    { intros F n tg. pose proof (reached_prepare w o m m t1 t2 JClear l) as Q. split.
      - intros (ts & J & K). unfold by_name in J. apply in_map_iff in J as ([y ts'] & J1 & J2). cbn [fst snd] in J1. injection J1 as <- <-.
        exists y. split; [reflexivity|]. eapply Q; eauto.
      - intros (y & <- & J). eapply Q in J; eauto. destruct J as (ts & J & K). exists ts. split; [|exact K].
        unfold by_name. apply in_map_iff. exists (y, ts). auto. }
    exists (by_name l). unfold Consolidate.consolidate_or_reset.
    apply dispatch_cases in D as [(L & _ & -> & _)|[(_ & _ & _ & -> & _)|[(L & N & C & D)|[(L & N & C1 & C & D)|[(L & N & C1 & C2 & S0 & D)|(L & N & C1 & C2 & S0 & D)]]]]].
    + destruct I2 as [[K|[]]|[K|[]]]; discriminate.
    + destruct I2 as [[]|[]].
    + rewrite C. pose proof (clear_within _ _ _ _ _ _ _ _ D) as W. destruct (PC _ _ _ _ _ D) as (m1 & h & x & Q & -> & Hr). exists m1, h, x. rewrite <- Q. auto.
    + rewrite C1, C. pose proof (clear_within _ _ _ _ _ _ _ _ D) as W. destruct (PC _ _ _ _ _ D) as (m1 & h & x & Q & -> & Hr). exists m1, h, x. rewrite <- Q. auto.
    + apply show_within in D. exfalso. refine (NJ _ _ D _ I2). discriminate.
    + assert (W : within (of_job JFuzz) (pbind (plift (flatten_executable_targets (E := executable) (o_exact (adjust o)) (o_ztarget (adjust o)) l)) (p_fuzz w (adjust o))))
        by (apply within_bind; [apply within_lift|intros fl; apply fuzz_within]).
      apply W in D. exfalso. refine (NJ _ _ D _ I2). discriminate.
Qed.
Print Assumptions C42_cleared_targets.

(** ** Fuzzing *)

Lemma fuzz_exact w o fl m m' t r : p_fuzz w o fl m = (m', t, r) ->
  let xts := map (fun xt => (as_exe (fst xt), snd xt)) fl in
  (forall att ns, In (AGenerate att ns) t -> exists y, auto_generate_corpora (q_td (w_cargo w)) (w_id w) (w_gen w) m xts = (m', att, ns, y)) /\
  (forall s, In (ACpus s) t -> exists n, fuzz_plan (w_cpus w) o (List.length fl) = Ret (Parallel n) /\ n < List.length fl /\ s = too_few_cpus o n (List.length fl)) /\
  (forall args, In (AForeground args) t -> fuzz_plan (w_cpus w) o (List.length fl) = Ret Foreground /\
     exists x tg xts', xts = (x, tg) :: xts' /\
       fuzz_args (w_checks w) o {| fc_ui := negb (o_no_ui o); fc_sufficient := true; fc_first := true |} (q_td (w_cargo w)) (w_id w) x tg = Ret args /\
       (r = ROk tt <-> w_foreground w = true)) /\
  (forall os, In (AParallel os) t -> exists n res, fuzz_plan (w_cpus w) o (List.length fl) = Ret (Parallel n) /\
     let k := {| Sched.k_names := map snd fl; Sched.k_cpus := n; Sched.k_no_ui := o_no_ui o; Sched.k_exit_code := o_exit_code o |} in
     Sched.run (w_strip w) k (Sched.s_init k) (w_session w) = (res, os)).
Proof.
  intros E xts. unfold p_fuzz in E. fold xts in E. destruct (is_some (o_coverage o)).
  { injection E as <- <- <-. split; [intros ? ? []|]. split; [intros ? []|]. split; intros ? []. }
  unfold pbind at 1 in E.
  destruct (auto_generate_corpora _ _ _ _ _) as [[[m1 att] ns] [u|e|]] eqn:G.
  2:{ injection E as <- <- <-. split; [intros a b [[= <- <-]|[]]; eauto|]. split; [intros ? [?|[]]; discriminate|]. split; intros ? [?|[]]; discriminate. }
  2:{ injection E as <- <- <-. split; [intros a b [[= <- <-]|[]]; eauto|]. split; [intros ? [?|[]]; discriminate|]. split; intros ? [?|[]]; discriminate. }
  assert (FIN : forall m2 t2 r2, (m2, [AGenerate att ns] ++ t2, r2) = (m', t, r) -> m2 = m1 -> (forall a b, ~ In (AGenerate a b) t2) ->
     (forall a b, In (AGenerate a b) t -> exists y, (m1, att, ns, Ret u) = (m', a, b, y))).
  { intros m2 t2 r2 H -> N a b I. injection H as <- <- _. destruct I as [[= <- <-]|I]; [eauto|]. now apply N in I. }
  unfold pbind at 1, plift at 1 in E. destruct (fuzz_plan (w_cpus w) o (List.length fl)) as [[|n]|e|] eqn:P.
  - destruct xts as [|[x tg] xts'] eqn:X.
    + split; [eapply FIN; [exact E|reflexivity|intros a b []]|]. injection E as <- <- <-. split; [intros ? [?|[]]; discriminate|]. split; intros ? [?|[]]; discriminate.
    + unfold pbind at 1, plift at 1 in E. destruct (fuzz_args _ _ _ _ _ _ _) as [args|e|] eqn:FA.
      * unfold pbind, pact in E. unfold perr, plift, pret in E.
        split; [|split; [|split]].
        -- destruct (w_foreground w); (eapply FIN; [exact E|reflexivity|intros a b [I|[]]; discriminate]).
        -- intros a I. destruct (w_foreground w); injection E as <- <- <-; (destruct I as [I|[I|[]]]; discriminate).
        -- intros a I. split; [reflexivity|]. exists x, tg, xts'. split; [reflexivity|].
           destruct (w_foreground w); injection E as <- <- <-; (destruct I as [I|[I|[]]]; [discriminate|injection I as <-]; split; [exact FA|split; congruence]).
        -- intros a I. destruct (w_foreground w); injection E as <- <- <-; (destruct I as [I|[I|[]]]; discriminate).
      * split; [eapply FIN; [exact E|reflexivity|intros a b []]|]. injection E as <- <- <-. split; [intros ? [?|[]]; discriminate|]. split; intros ? [?|[]]; discriminate.
      * split; [eapply FIN; [exact E|reflexivity|intros a b []]|]. injection E as <- <- <-. split; [intros ? [?|[]]; discriminate|]. split; intros ? [?|[]]; discriminate.
  - assert (C : forall q : phase unit, pbind (if List.length fl <=? n then pret tt else pact (ACpus (too_few_cpus o n (List.length fl)))) (fun _ => q) m1
                = match q m1 with (m2, t2, r2) => (m2, cpu_note o n (List.length fl) ++ t2, r2) end).
    { intros q. unfold cpu_note, pbind, pret, pact. destruct (List.length fl <=? n); now destruct (q m1) as [[? ?] ?]. }
    rewrite C in E. clear C.
    assert (CN : forall s t2, In (ACpus s) (AGenerate att ns :: cpu_note o n (List.length fl) ++ t2) -> (forall s, ~ In (ACpus s) t2) ->
              n < List.length fl /\ s = too_few_cpus o n (List.length fl)).
    { intros s t2 [I|I] N; [discriminate|]. apply in_app_iff in I as [I|I]; [|now apply N in I]. unfold cpu_note in I.
      destruct (List.length fl <=? n) eqn:LE; [destruct I|]. apply Nat.leb_gt in LE. destruct I as [I|[]]. split; [exact LE|congruence]. }
    unfold pbind at 1, plift at 1 in E. destruct (mapM _ _) as [l|e|].
    + set (k := {| Sched.k_names := map snd fl; Sched.k_cpus := n; Sched.k_no_ui := o_no_ui o; Sched.k_exit_code := o_exit_code o |}) in *.
      destruct (Sched.run (w_strip w) k (Sched.s_init k) (w_session w)) as [res os] eqn:R. cbn [fst snd] in E.
      assert (T : exists r2, (m1, AGenerate att ns :: cpu_note o n (List.length fl) ++ [AParallel os], r2) = (m', t, r)).
      { unfold pbind, pact, plift in E. destruct res as [s|[u'|e|]|]; eauto. }
      destruct T as (r2 & T). split; [|split; [|split]].
      * eapply FIN; [exact T|reflexivity|]. intros a b I. apply in_app_iff in I as [I|[I|[]]]; [now apply cpu_note_in in I as (? & ?)|discriminate].
      * intros s I. exists n. split; [reflexivity|]. injection T as <- <- <-. apply (CN _ _ I). intros s' [K|[]]. discriminate.
      * intros a I. injection T as <- <- <-. destruct I as [I|I]; [discriminate|]. apply in_app_iff in I as [I|[I|[]]]; [now apply cpu_note_in in I as (? & ?)|discriminate].
      * intros a I. injection T as <- <- <-. destruct I as [I|I]; [discriminate|]. apply in_app_iff in I as [I|[I|[]]]; [now apply cpu_note_in in I as (? & ?)|]. injection I as <-.
        exists n, res. split; [reflexivity|exact R].
    + assert (T : (m1, [AGenerate att ns] ++ cpu_note o n (List.length fl) ++ [], RErr e) = (m', t, r)) by exact E. clear E.
      split; [eapply FIN; [exact T|reflexivity|intros a b I; apply in_app_iff in I as [I|[]]; now apply cpu_note_in in I as (? & ?)]|]. injection T as <- <- <-.
      split; [intros s I; exists n; split; [reflexivity|]; apply (CN _ _ I); intros ? []|].
      split; (intros a [I|I]; [discriminate|]; apply in_app_iff in I as [I|[]]; now apply cpu_note_in in I as (? & ?)).
    + assert (T : (m1, [AGenerate att ns] ++ cpu_note o n (List.length fl) ++ [], RPanic) = (m', t, r)) by exact E. clear E.
      split; [eapply FIN; [exact T|reflexivity|intros a b I; apply in_app_iff in I as [I|[]]; now apply cpu_note_in in I as (? & ?)]|]. injection T as <- <- <-.
      split; [intros s I; exists n; split; [reflexivity|]; apply (CN _ _ I); intros ? []|].
      split; (intros a [I|I]; [discriminate|]; apply in_app_iff in I as [I|[]]; now apply cpu_note_in in I as (? & ?)).
  - split; [eapply FIN; [exact E|reflexivity|intros a b []]|]. injection E as <- <- <-. split; [intros ? [?|[]]; discriminate|]. split; intros ? [?|[]]; discriminate.
  - split; [eapply FIN; [exact E|reflexivity|intros a b []]|]. injection E as <- <- <-. split; [intros ? [?|[]]; discriminate|]. split; intros ? [?|[]]; discriminate.
Qed.

(** Fuzzing works on exactly the targets reached: corpora are generated for them (C39), a single
    one is fuzzed in the foreground with the command line of C45, several ones by the parallel
    loop of C52-C58, without user interface if --no-ui or --exit-code is given. *)
Theorem C42_fuzzed_targets :
  forall (w : world) (o : opts) (m m' : fs) (t : list act) (r : rres unit) a,
    run w o m = (m', t, r) -> In a t -> act_job a = Some JFuzz ->
    exists fl : list (executable * str),
      (forall x tg, In (x, tg) fl <-> reached w o t x tg) /\
      let no_ui := o_no_ui o || o_exit_code o in
      let xts := map (fun xt => (as_exe (fst xt), snd xt)) fl in
      match a with
      | AGenerate att notes => exists y, auto_generate_corpora (q_td (w_cargo w)) (w_id w) (w_gen w) m xts = (m', att, notes, y)
      | ACpus s =>
          exists n a b c, fuzz_plan (w_cpus w) (adjust o) (List.length fl) = Ret (Parallel n) /\ n < List.length fl /\
            Decimal.numeral (N.of_nat n) a /\ Decimal.numeral (N.of_nat (List.length fl)) b /\ Decimal.numeral (o_slice o) c /\
            s = lit "Number of cpus (" ++ a ++ lit ") is less than number of fuzz targets (" ++ b ++ lit "); fuzzing each for " ++ c ++ lit " seconds"
      | AForeground args =>
          exists x tg, fl = [(x, tg)] /\ o_exit_code o = false /\ (r = ROk tt <-> w_foreground w = true) /\
            fuzz_args (w_checks w) (adjust o) {| fc_ui := negb no_ui; fc_sufficient := true; fc_first := true |}
                      (q_td (w_cargo w)) (w_id w) {| FuzzCmd.x_path := ex_path x; FuzzCmd.x_name := ex_name x |} tg = Ret args
      | AParallel os =>
          exists n res, fuzz_plan (w_cpus w) (adjust o) (List.length fl) = Ret (Parallel n) /\
            let k := {| Sched.k_names := map snd fl; Sched.k_cpus := n; Sched.k_no_ui := no_ui; Sched.k_exit_code := o_exit_code o |} in
            Sched.run (w_strip w) k (Sched.s_init k) (w_session w) = (res, os)
      | _ => False
      end.
Proof.
  intros w o m m' t r a E I J. apply run_eq in E as (r0 & E & R).
  pose proof (adjust_same o) as (_ & _ & _ & _ & _ & _ & _ & _ & _ & AX & _ & _ & AU).
  apply run_shape in E as [(_ & _ & -> & _)|[(_ & _ & P & _)|(_ & t1 & t2 & l & P & D & ->)]].
  - destruct I.
  - apply prepare_within in P. exfalso. exact (prep_no_job P J I).
  - pose proof (prepare_within _ _ _ _ _ _ P) as PW. apply in_app_iff in I as [I|I]; [exfalso; exact (prep_no_job PW J I)|].
    apply dispatch_cases in D as [(L & _ & -> & _)|[(_ & _ & _ & -> & _)|[(L & N & C & D)|[(L & N & C1 & C & D)|[(L & N & C1 & C2 & S0 & D)|(L & N & C1 & C2 & S0 & D)]]]]].
    + destruct I as [<-|[]]. discriminate.
    + destruct I.
    + apply clear_within in D. exfalso. refine (job_no_prep D _ I). congruence.
    + apply clear_within in D. exfalso. refine (job_no_prep D _ I). congruence.
    + apply show_within in D. exfalso. refine (job_no_prep D _ I). congruence.
    + assert (W : within (of_job JFuzz) (pbind (plift (flatten_executable_targets (E := executable) (o_exact (adjust o)) (o_ztarget (adjust o)) l)) (p_fuzz w (adjust o))))
        by (apply within_bind; [apply within_lift|intros fl; apply fuzz_within]).
      pose proof (W _ _ _ _ D) as FJ.
      apply pbind_inv in D as [(m1 & u1 & u2 & fl & X & D & ->)|(r1 & X & _)].
      2:{ injection X as _ <- _. destruct I. }
      unfold plift in X. destruct (flatten_executable_targets _ _ _) as [fl'|e|] eqn:FL; try congruence. injection X as <- <- ->.
      cbn [app] in *. exists fl. split.
      { intros x tg. rewrite (flatten_in _ _ _ _ x tg FL). eapply reached_prepare; eauto. }
      cbv zeta. destruct (fuzz_exact _ _ _ _ _ _ _ D) as (G1 & G0 & G2 & G3). rewrite <- AU, <- AX.
      destruct a; try discriminate J.
      * exact (G1 _ _ I).
      * destruct (G0 _ I) as (n & PL & LT & ->). eexists n, _, _, _. split; [exact PL|]. split; [exact LT|].
        split; [apply Decimal.dec_numeral|]. split; [apply Decimal.dec_numeral|]. split; [apply Decimal.dec_numeral|].
        unfold too_few_cpus, adjust. destruct (o_exit_code o); reflexivity.
      * destruct (G2 _ I) as (PL & x & tg & xts' & XT & FA & RR).
        assert (LE : List.length fl = 1 /\ o_exit_code (adjust o) = false).
        { unfold fuzz_plan in PL. destruct (is_some _); [discriminate|]. destruct (o_exit_code (adjust o)), (List.length fl =? 1) eqn:Q; cbn [negb andb] in PL;
            try (split; [now apply Nat.eqb_eq|reflexivity]); exfalso; destruct (match o_cpus (adjust o) with Some n => _ | None => _ end); cbn [bind] in PL; try discriminate;
            destruct (negb (1 <=? _)); try discriminate; destruct (negb _ && _); discriminate. }
        destruct LE as (LE & XC). destruct fl as [|[y u] [|]]; try discriminate LE. cbn [map fst snd] in XT. injection XT as <- <- _.
        exists y, u. split; [reflexivity|]. split; [exact XC|]. split; [|exact FA].
        rewrite <- RR, R. destruct r0 as [[]|e| |n|]; try tauto. destruct (o_exit_code o); split; discriminate.
      * exact (G3 _ I).
Qed.
Print Assumptions C42_fuzzed_targets.

(** ** Examples *)

Definition ex_coverage : opts :=
  {| o_backtrace := false; o_consolidate := false; o_consolidate_all := false; o_coverage := Some Corpus_;
     o_cpus := None; o_display := None; o_exact := false; o_exit_code := true; o_list := false;
     o_max_total_time := None; o_no_run := false; o_no_ui := false; o_persistent := false;
     o_pretty := false; o_replay := None; o_reset := false; o_reset_all := false; o_resume := false;
     o_run_until_crash := false; o_slice := 1200%N; o_timeout := None;
     o_features := []; o_manifest_path := Some (lit "m.toml"); o_no_default_features := false; o_package := None;
     o_release := false; o_test := None; o_verbose := false; o_ztarget := Some (lit "g"); o_zzargs := [] |}.
Definition act_note (a : act) : str :=
  match a with
  | AClean => lit "clean" | AReport args => List.concat args | ATarget x t _ _ => ex_name x ++ lit " " ++ t
  | AReset => lit "reset" | AConsolidate => lit "consolidate" | AForeground args => lit "foreground"
  | AGenerate att _ => lit "generate" ++ List.concat (map (fun a => lit " " ++ snd a) att)
  | AParallel _ => lit "parallel" | ACpus s => s | AHeading s => s | ANote _ => lit "note" | _ => [] end.

Definition ex_cov_world : world :=
  let w := ex_world ex_afl_ok [] in
  {| w_cargo := {| q_md := q_md (w_cargo w); q_td := [lit "t"]; q_here := true; q_env := Some (lit "LLVM_PROFILE_FILE='/t/x-%p.profraw'") |};
     w_parse := w_parse w; w_afl := w_afl w; w_terminal := false; w_build := w_build w; w_listing := w_listing w;
     w_self := w_self w; w_show := w_show w; w_id := None; w_io := w_io w; w_width := None; w_clean := true; w_eio := w_eio w; w_lcov := Some false;
     w_report := w_report w; w_gen := w_gen w; w_cpus := 4; w_checks := true; w_foreground := true; w_strip := w_strip w;
     w_session := [] |}.

(** One of the two targets is selected; its coverage is measured between cleaning and reporting. *)
Example C42_coverage_example :
  (match run ex_cov_world ex_coverage ∅ with (_, t, r) => (map act_note t, r) end)
  = ([[]; []; []; lit "clean"; lit "k g"; lit "llvm-covreport--lcov--output-path=lcov.info--manifest-pathm.toml"; lit "note"], ROk tt)
  /\ o_no_ui (adjust ex_coverage) = true.
Proof. vm_compute. auto. Qed.

(** Resetting: target "f" of the executable "k" loses its queue, the other keeps it. *)
Definition ex_reset (tg : option str) : opts :=
  {| o_backtrace := false; o_consolidate := false; o_consolidate_all := false; o_coverage := None;
     o_cpus := None; o_display := None; o_exact := false; o_exit_code := false; o_list := false;
     o_max_total_time := None; o_no_run := false; o_no_ui := false; o_persistent := false;
     o_pretty := false; o_replay := None; o_reset := true; o_reset_all := false; o_resume := false;
     o_run_until_crash := false; o_slice := 1200%N; o_timeout := None;
     o_features := []; o_manifest_path := None; o_no_default_features := false; o_package := None;
     o_release := false; o_test := None; o_verbose := false; o_ztarget := tg; o_zzargs := [] |}.
Definition ex_queue (tg : str) : path := [lit "t"; lit "afl"; lit "output"; lit "k::" ++ tg; lit "default"; lit "queue"].
Definition ex_fs : fs := (create_dir_all (create_dir_all ∅ (ex_queue (lit "f"))).1 (ex_queue (lit "g"))).1.
Example C42_cleared_example :
  match run (ex_world ex_afl_ok []) (ex_reset (Some (lit "f"))) ex_fs with
  | (m, t, r) => (map act_note t, r, exists_ m (ex_queue (lit "f")), exists_ m (ex_queue (lit "g")))
  end = ([[]; []; []; lit "reset"], ROk tt, false, true).
Proof. vm_compute. reflexivity. Qed.

(** Fuzzing one target happens in the foreground, fuzzing both in the loop. *)
Definition ex_fuzz (tg : option str) : opts :=
  {| o_backtrace := false; o_consolidate := false; o_consolidate_all := false; o_coverage := None;
     o_cpus := None; o_display := None; o_exact := true; o_exit_code := false; o_list := false;
     o_max_total_time := None; o_no_run := false; o_no_ui := true; o_persistent := false;
     o_pretty := false; o_replay := None; o_reset := false; o_reset_all := false; o_resume := false;
     o_run_until_crash := false; o_slice := 1200%N; o_timeout := None;
     o_features := []; o_manifest_path := None; o_no_default_features := false; o_package := None;
     o_release := false; o_test := None; o_verbose := false; o_ztarget := tg; o_zzargs := [] |}.
Example C42_fuzzed_example :
  match run (ex_world ex_afl_ok []) (ex_fuzz (Some (lit "g"))) ∅ with (_, t, r) => (map act_note t, r) end
    = ([[]; []; []; lit "generate g"; lit "foreground"], ROk tt) /\
  match run (ex_world ex_afl_ok []) (ex_fuzz None) ∅ with (_, t, r) => map act_note t end
    = [[]; []; []; lit "generate f g"; lit "parallel"].
Proof. vm_compute. auto. Qed.
