(** Facts about invocations. *)
From Coq Require Import String List Ascii Bool Arith NArith Lia.
From stdpp Require Import gmap strings.
From Verif Require Import Base Utf8 Lossy Env Dirs Opts Targets Semver Sha1 Fs Write Meta FuzzCmd Build AutoGen Run.
From Verif Require Consolidate Entries Sched Ui.
Import ListNotations.
Local Open Scope nat_scope.

(** The kinds of work; preparation is not one. *)
Inductive job := JList | JClear | JShow | JFuzz.

Definition act_job (a : act) : option job :=
  match a with
  | AVersion | ABuild _ _ | ACompiler _ | AListTests _ | AVersionNote _ => None
  | APrintList _ => Some JList
  | AConsolidate | AReset => Some JClear
  | AClean | AHeading _ | ATarget _ _ _ _ | AReport _ | ANote _ => Some JShow
  | AGenerate _ _ | ACpus _ | AForeground _ | AParallel _ => Some JFuzz
  end.

(** The objects that name an instrumented run. *)
Definition instrumented (b : object) : Prop :=
  In b [CorpusInstrumented; CrashesInstrumented; HangsInstrumented; QueueInstrumented].

(** All actions of a phase satisfy [Q]. *)
Definition within {A} (Q : act -> Prop) (p : phase A) : Prop :=
  forall m m' t r, p m = (m', t, r) -> Forall Q t.
(** A phase leaves the data directories alone. *)
Definition keeps {A} (p : phase A) : Prop := forall m m' t r, p m = (m', t, r) -> m' = m.
(** A phase never ends the process by itself. *)
Definition no_exit {A} (p : phase A) : Prop := forall m m' t n, p m <> (m', t, RExit n).

Lemma pbind_inv {A B} (x : phase A) (f : A -> phase B) m m2 t r :
  pbind x f m = (m2, t, r) ->
  (exists m1 t1 t2 a, x m = (m1, t1, ROk a) /\ f a m1 = (m2, t2, r) /\ t = t1 ++ t2) \/
  (exists r1, x m = (m2, t, r1) /\ (forall a, r1 <> ROk a) /\ (forall b, r <> ROk b) /\
     (forall e, r = RErr e <-> r1 = RErr e) /\ (r = RPanic <-> r1 = RPanic) /\
     (forall n, r = RExit n <-> r1 = RExit n) /\ (r = RRunning <-> r1 = RRunning)).
Proof.
  unfold pbind. destruct (x m) as [[m1 t1] [a|e| |n|]] eqn:X.
  - destruct (f a m1) as [[m3 t3] r3] eqn:F. intros E. left. exists m1, t1, t3, a.
    injection E as <- <- <-. auto.
  - intros E. injection E as <- <- <-. right. exists (RErr e). split; [reflexivity|].
    repeat split; try congruence.
  - intros E. injection E as <- <- <-. right. exists RPanic. repeat split; try congruence.
  - intros E. injection E as <- <- <-. right. exists (RExit n). repeat split; try congruence.
  - intros E. injection E as <- <- <-. right. exists RRunning. repeat split; try congruence.
Qed.

Lemma pbind_ok {A B} (x : phase A) (f : A -> phase B) m m1 t1 a m2 t2 r :
  x m = (m1, t1, ROk a) -> f a m1 = (m2, t2, r) -> pbind x f m = (m2, t1 ++ t2, r).
Proof. intros X F. unfold pbind. now rewrite X, F. Qed.

Section Q.
  Variable Q : act -> Prop.

  Lemma within_ret {A} (a : A) : within Q (pret a).
  Proof. intros m m' t r E. injection E as <- <- <-. constructor. Qed.
  Lemma within_lift {A} (x : outcome A) : within Q (plift x).
  Proof. intros m m' t r E. injection E as <- <- <-. constructor. Qed.
  Lemma within_act a : Q a -> within Q (pact a).
  Proof. intros H m m' t r E. injection E as <- <- <-. auto. Qed.
  Lemma within_bind {A B} (x : phase A) (f : A -> phase B) : within Q x -> (forall a, within Q (f a)) -> within Q (pbind x f).
  Proof.
    intros Hx Hf m m' t r E. apply pbind_inv in E as [(m1 & t1 & t2 & a & X & F & ->)|(r1 & X & _)].
    - apply Forall_app. split; [eapply Hx; eauto|eapply Hf; eauto].
    - eapply Hx; eauto.
  Qed.
  Lemma within_for {A} (f : A -> phase unit) l : (forall a, within Q (f a)) -> within Q (pfor f l).
  Proof. intros H. induction l as [|a l IH]; [apply within_ret|]. apply within_bind; auto. Qed.
  Lemma within_map {A B} (f : A -> phase B) l : (forall a, within Q (f a)) -> within Q (pmap f l).
  Proof.
    intros H. induction l as [|a l IH]; [apply within_ret|]. cbn [pmap]. apply within_bind; [auto|]. intros b.
    apply within_bind; [exact IH|]. intros bs. apply within_ret.
  Qed.
End Q.

Lemma keeps_ret {A} (a : A) : keeps (pret a).
Proof. intros m m' t r E. now injection E as <- <- <-. Qed.
Lemma keeps_lift {A} (x : outcome A) : keeps (plift x).
Proof. intros m m' t r E. now injection E as <- <- <-. Qed.
Lemma keeps_act a : keeps (pact a).
Proof. intros m m' t r E. now injection E as <- <- <-. Qed.
Lemma keeps_bind {A B} (x : phase A) (f : A -> phase B) : keeps x -> (forall a, keeps (f a)) -> keeps (pbind x f).
Proof.
  intros Hx Hf m m' t r E. apply pbind_inv in E as [(m1 & t1 & t2 & a & X & F & ->)|(r1 & X & _)].
  - apply Hx in X. subst m1. eapply Hf; eauto.
  - eapply Hx; eauto.
Qed.
Lemma keeps_for {A} (f : A -> phase unit) l : (forall a, keeps (f a)) -> keeps (pfor f l).
Proof. intros H. induction l as [|a l IH]; [apply keeps_ret|]. apply keeps_bind; auto. Qed.

Lemma keeps_map {A B} (f : A -> phase B) l : (forall a, keeps (f a)) -> keeps (pmap f l).
Proof.
  intros H. induction l as [|a l IH]; [apply keeps_ret|]. cbn [pmap]. apply keeps_bind; [auto|]. intros b.
  apply keeps_bind; [exact IH|]. intros bs. apply keeps_ret.
Qed.

Lemma no_exit_ret {A} (a : A) : no_exit (pret a).
Proof. intros m m' t n E. unfold pret in E. congruence. Qed.
Lemma no_exit_lift {A} (x : outcome A) : no_exit (plift x).
Proof. intros m m' t n E. unfold plift in E. destruct x; congruence. Qed.
Lemma no_exit_act a : no_exit (pact a).
Proof. intros m m' t n E. unfold pact in E. congruence. Qed.
Lemma no_exit_bind {A B} (x : phase A) (f : A -> phase B) : no_exit x -> (forall a, no_exit (f a)) -> no_exit (pbind x f).
Proof.
  intros Hx Hf m m' t n E. apply pbind_inv in E as [(m1 & t1 & t2 & a & X & F & ->)|(r1 & X & _ & _ & _ & _ & Hn & _)].
  - eapply Hf; eauto.
  - destruct (Hn n) as [H _]. rewrite (H eq_refl) in X. eapply Hx; eauto.
Qed.
Lemma no_exit_for {A} (f : A -> phase unit) l : (forall a, no_exit (f a)) -> no_exit (pfor f l).
Proof. intros H. induction l as [|a l IH]; [apply no_exit_ret|]. apply no_exit_bind; auto. Qed.

Lemma no_exit_map {A B} (f : A -> phase B) l : (forall a, no_exit (f a)) -> no_exit (pmap f l).
Proof.
  intros H. induction l as [|a l IH]; [apply no_exit_ret|]. cbn [pmap]. apply no_exit_bind; [auto|]. intros b.
  apply no_exit_bind; [exact IH|]. intros bs. apply no_exit_ret.
Qed.

Definition prep (a : act) : Prop := act_job a = None.
Definition of_job (j : job) (a : act) : Prop := act_job a = Some j.

Ltac phase_tac :=
  repeat first
    [ apply within_ret | apply within_lift | apply within_act; [try reflexivity] | apply within_bind; [|intros ?]
    | apply within_for; intros ? | apply within_map; intros ? | apply keeps_map; intros ? | apply no_exit_map; intros ?
    | apply keeps_ret | apply keeps_lift | apply keeps_act | apply keeps_bind; [|intros ?] | apply keeps_for; intros ?
    | apply no_exit_ret | apply no_exit_lift | apply no_exit_act | apply no_exit_bind; [|intros ?] | apply no_exit_for; intros ? ].

Section W.
  Variables (w : world) (o : opts).

  Lemma build_within : within prep (p_build w o).
  Proof.
    unfold p_build. apply within_bind; [apply within_lift|]. intros [c [[md td] env]]. cbn [snd].
    apply within_bind; [now apply within_act|]. intros _. unfold perr. destruct (w_build _ _) as [[[|] ms]|]; try apply within_lift.
    apply within_bind; [apply within_for; intros []; cbn [p_compiler]; phase_tac|]. intros _. apply within_lift.
  Qed.
  Lemma build_keeps : keeps (p_build w o).
  Proof.
    unfold p_build. apply keeps_bind; [apply keeps_lift|]. intros [c [[md td] env]]. cbn [snd].
    apply keeps_bind; [apply keeps_act|]. intros _. unfold perr. destruct (w_build _ _) as [[[|] ms]|]; try apply keeps_lift.
    apply keeps_bind; [apply keeps_for; intros []; cbn [p_compiler]; phase_tac|]. intros _. apply keeps_lift.
  Qed.
  Lemma build_no_exit : no_exit (p_build w o).
  Proof.
    unfold p_build. apply no_exit_bind; [apply no_exit_lift|]. intros [c [[md td] env]]. cbn [snd].
    apply no_exit_bind; [apply no_exit_act|]. intros _. unfold perr. destruct (w_build _ _) as [[[|] ms]|]; try apply no_exit_lift.
    apply no_exit_bind; [apply no_exit_for; intros []; cbn [p_compiler]; phase_tac|]. intros _. apply no_exit_lift.
  Qed.

  Lemma targets_within xs : within prep (p_targets w o xs).
  Proof. unfold p_targets. phase_tac. Qed.
  Lemma targets_keeps xs : keeps (p_targets w o xs).
  Proof. unfold p_targets. phase_tac. Qed.
  Lemma targets_no_exit xs : no_exit (p_targets w o xs).
  Proof. unfold p_targets. phase_tac. Qed.

  Lemma versions_within afl l : within prep (p_versions w afl l).
  Proof. unfold p_versions, perr. destruct (snd _); phase_tac. Qed.
  Lemma versions_keeps afl l : keeps (p_versions w afl l).
  Proof. unfold p_versions, perr. destruct (snd _); phase_tac. Qed.
  Lemma versions_no_exit afl l : no_exit (p_versions w afl l).
  Proof. unfold p_versions, perr. destruct (snd _); phase_tac. Qed.

  Lemma io_within a f : of_job JClear a -> within (of_job JClear) (p_io a f).
  Proof. intros H m m' t r E. unfold p_io in E. destruct (f m) as [[m1 h] [u|e|]]; injection E as <- <- <-; auto. Qed.
  Lemma io_no_exit a f : no_exit (p_io a f).
  Proof. intros m m' t n E. unfold p_io in E. destruct (f m) as [[m1 h] [u|e|]]; congruence. Qed.

  Lemma clear_within b l : within (of_job JClear) (p_clear w o b l).
  Proof. unfold p_clear. apply within_bind; [destruct b; [now apply io_within|apply within_ret]|intros _; now apply io_within]. Qed.
  Lemma clear_no_exit b l : no_exit (p_clear w o b l).
  Proof. unfold p_clear. apply no_exit_bind; [destruct b; [apply io_no_exit|apply no_exit_ret]|intros _; apply io_no_exit]. Qed.

  Lemma heading_within b tg : within (of_job JShow) (p_heading w b tg).
  Proof.
    unfold p_heading. destruct b; [|apply within_ret]. apply within_bind; [apply within_lift|]. intros d. now apply within_act.
  Qed.
  Lemma entries_within xt : within (of_job JShow) (p_entries w o xt).
  Proof.
    unfold p_entries. destruct (chosen_object o); [|apply within_ret]. apply within_bind; [apply within_lift|].
    intros [[rct raw] dir]. phase_tac.
  Qed.
  Lemma heading_keeps b tg : keeps (p_heading w b tg).
  Proof.
    unfold p_heading. destruct b; [|apply keeps_ret]. apply keeps_bind; [apply keeps_lift|]. intros d. apply keeps_act.
  Qed.
  Lemma entries_keeps xt : keeps (p_entries w o xt).
  Proof.
    unfold p_entries. destruct (chosen_object o); [|apply keeps_ret]. apply keeps_bind; [apply keeps_lift|].
    intros [[rct raw] dir]. phase_tac.
  Qed.
  Lemma heading_no_exit b tg : no_exit (p_heading w b tg).
  Proof.
    unfold p_heading. destruct b; [|apply no_exit_ret]. apply no_exit_bind; [apply no_exit_lift|]. intros d. apply no_exit_act.
  Qed.
  Lemma entries_no_exit xt : no_exit (p_entries w o xt).
  Proof.
    unfold p_entries. destruct (chosen_object o); [|apply no_exit_ret]. apply no_exit_bind; [apply no_exit_lift|].
    intros [[rct raw] dir]. phase_tac.
  Qed.

  Lemma show_within l : within (of_job JShow) (p_show w o l).
  Proof.
    unfold p_show, p_report, perr. apply within_bind.
    { destruct (is_some _); [|apply within_ret]. apply within_bind; [now apply within_act|]. intros _. destruct (w_clean w); phase_tac. }
    intros _. apply within_bind; [apply within_lift|]. intros fl. apply within_bind; [apply within_for; intros xt; apply within_bind; [apply heading_within|intros _; apply entries_within]|].
    intros _. destruct (is_some _); [|apply within_ret]. destruct (w_lcov w) as [e|]; [|apply within_lift].
    apply within_bind; [destruct e; phase_tac|]. intros _. apply within_bind; [now apply within_act|]. intros _. destruct (w_report w _); phase_tac.
  Qed.
  Lemma show_keeps l : keeps (p_show w o l).
  Proof.
    unfold p_show, p_report, perr. apply keeps_bind.
    { destruct (is_some _); [|apply keeps_ret]. apply keeps_bind; [apply keeps_act|]. intros _. destruct (w_clean w); phase_tac. }
    intros _. apply keeps_bind; [apply keeps_lift|]. intros fl. apply keeps_bind; [apply keeps_for; intros xt; apply keeps_bind; [apply heading_keeps|intros _; apply entries_keeps]|].
    intros _. destruct (is_some _); [|apply keeps_ret]. destruct (w_lcov w) as [e|]; [|apply keeps_lift].
    apply keeps_bind; [destruct e; phase_tac|]. intros _. apply keeps_bind; [apply keeps_act|]. intros _. destruct (w_report w _); phase_tac.
  Qed.
  Lemma show_no_exit l : no_exit (p_show w o l).
  Proof.
    unfold p_show, p_report, perr. apply no_exit_bind.
    { destruct (is_some _); [|apply no_exit_ret]. apply no_exit_bind; [apply no_exit_act|]. intros _. destruct (w_clean w); phase_tac. }
    intros _. apply no_exit_bind; [apply no_exit_lift|]. intros fl. apply no_exit_bind; [apply no_exit_for; intros xt; apply no_exit_bind; [apply heading_no_exit|intros _; apply entries_no_exit]|].
    intros _. destruct (is_some _); [|apply no_exit_ret]. destruct (w_lcov w) as [e|]; [|apply no_exit_lift].
    apply no_exit_bind; [destruct e; phase_tac|]. intros _. apply no_exit_bind; [apply no_exit_act|]. intros _. destruct (w_report w _); phase_tac.
  Qed.

  Lemma fuzz_within fl : within (of_job JFuzz) (p_fuzz w o fl).
  Proof.
    unfold p_fuzz. destruct (is_some (o_coverage o)); [apply within_lift|]. apply within_bind.
    { intros m m' t r E. destruct (auto_generate_corpora _ _ _ _ _) as [[[m1 att] ns] [u|e|]]; injection E as <- <- <-; repeat constructor. }
    intros _. apply within_bind; [apply within_lift|]. intros [|n].
    - destruct (map _ fl) as [|[x t] xts]; [apply within_ret|]. apply within_bind; [apply within_lift|]. intros args.
      apply within_bind; [now apply within_act|]. intros _. unfold perr. destruct (w_foreground w); phase_tac.
    - apply within_bind; [destruct (_ <=? _); [apply within_ret|now apply within_act]|]. intros _.
      apply within_bind; [apply within_lift|]. intros _. apply within_bind; [now apply within_act|]. intros _.
      destruct (fst _) as [s|x|]; [|apply within_lift|]; intros m m' t r E; injection E as <- <- <-; constructor.
  Qed.

  Lemma prepare_within : within prep (p_prepare w o).
  Proof.
    unfold p_prepare. apply within_bind; [now apply within_act|]. intros _. apply within_bind; [apply within_lift|]. intros afl.
    apply within_bind; [apply build_within|]. intros xs. apply within_bind; [apply targets_within|]. intros l.
    apply within_bind; [apply versions_within|]. intros _. apply within_ret.
  Qed.
  Lemma prepare_keeps : keeps (p_prepare w o).
  Proof.
    unfold p_prepare. apply keeps_bind; [apply keeps_act|]. intros _. apply keeps_bind; [apply keeps_lift|]. intros afl.
    apply keeps_bind; [apply build_keeps|]. intros xs. apply keeps_bind; [apply targets_keeps|]. intros l.
    apply keeps_bind; [apply versions_keeps|]. intros _. apply keeps_ret.
  Qed.
  Lemma prepare_no_exit : no_exit (p_prepare w o).
  Proof.
    unfold p_prepare. apply no_exit_bind; [apply no_exit_act|]. intros _. apply no_exit_bind; [apply no_exit_lift|]. intros afl.
    apply no_exit_bind; [apply build_no_exit|]. intros xs. apply no_exit_bind; [apply targets_no_exit|]. intros l.
    apply no_exit_bind; [apply versions_no_exit|]. intros _. apply no_exit_ret.
  Qed.

  (** A prepared run has built with the documented command line. *)
  Lemma prepare_built m m' t l : p_prepare w o m = (m', t, ROk l) ->
    exists tdir, own_target_directory (q_td (w_cargo w)) o = Ret tdir /\
      In (ABuild (build_args o tdir (w_terminal w)) (silence_stderr o)) t.
  Proof.
    intros E. unfold p_prepare in E.
    apply pbind_inv in E as [(m1 & t1 & t2 & a & X & E & ->)|(r1 & _ & _ & N & _)]; [|exfalso; now apply (N l)].
    apply pbind_inv in E as [(m3 & t3 & t4 & afl & X3 & E & ->)|(r1 & _ & _ & N & _)]; [|exfalso; now apply (N l)].
    apply pbind_inv in E as [(m5 & t5 & t6 & xs & X5 & E & ->)|(r1 & _ & _ & N & _)]; [|exfalso; now apply (N l)].
    unfold p_build in X5.
    apply pbind_inv in X5 as [(m7 & t7 & t8 & c & X7 & X8 & ->)|(r1 & _ & _ & N & _)]; [|exfalso; now apply (N xs)].
    unfold plift in X7. destruct (prepare (w_cargo w) no_caches o) as [[c' [[md td] env]]|e|] eqn:P; try congruence.
    injection X7 as <- <- <-. cbn [snd] in X8.
    apply pbind_inv in X8 as [(m9 & t9 & t10 & u & X9 & X10 & ->)|(r1 & _ & _ & N & _)]; [|exfalso; now apply (N xs)].
    injection X9 as <- <- <-. unfold prepare in P. cbn [no_caches c_md c_td c_llvm get_or_init] in P.
    destruct (own_metadata _ _) as [md'|e|]; cbn [bind] in P; try congruence.
    unfold asked_target_directory in P. destruct (q_here (w_cargo w)); [|discriminate P].
    destruct (own_target_directory (q_td (w_cargo w)) o) as [td'|e|]; cbn [bind] in P; try congruence.
    destruct (own_llvm_envs _ _ _ _) as [env'|e|]; cbn [bind] in P; try congruence.
    exists td. split; [congruence|]. rewrite !in_app_iff. right. right. left. right. left. now left.
  Qed.

  Lemma dispatch_cases l m m' t r : dispatch w o l m = (m', t, r) ->
    (o_list o = true /\ m' = m /\ t = [APrintList l] /\ r = ROk tt) \/
    (o_list o = false /\ o_no_run o = true /\ m' = m /\ t = [] /\ r = ROk tt) \/
    (o_list o = false /\ o_no_run o = false /\ o_consolidate_all o || o_reset_all o = true /\
       p_clear w o (o_consolidate_all o) l m = (m', t, r)) \/
    (o_list o = false /\ o_no_run o = false /\ o_consolidate_all o || o_reset_all o = false /\ o_consolidate o || o_reset o = true /\
       p_clear w o (o_consolidate o) l m = (m', t, r)) \/
    (o_list o = false /\ o_no_run o = false /\ o_consolidate_all o || o_reset_all o = false /\ o_consolidate o || o_reset o = false /\
       is_some (o_coverage o) || is_some (o_display o) || is_some (o_replay o) = true /\ p_show w o l m = (m', t, r)) \/
    (o_list o = false /\ o_no_run o = false /\ o_consolidate_all o || o_reset_all o = false /\ o_consolidate o || o_reset o = false /\
       is_some (o_coverage o) || is_some (o_display o) || is_some (o_replay o) = false /\
       pbind (plift (flatten_executable_targets (o_exact o) (o_ztarget o) l)) (p_fuzz w o) m = (m', t, r)).
  Proof.
    intros E. unfold dispatch in E. destruct (o_list o); [left; injection E as <- <- <-; auto|]. right.
    destruct (o_no_run o); [left; injection E as <- <- <-; auto|]. right.
    destruct (o_consolidate_all o || o_reset_all o); [left; auto|]. right.
    destruct (o_consolidate o || o_reset o); [left; auto|]. right.
    destruct (is_some (o_coverage o) || is_some (o_display o) || is_some (o_replay o)); [left|right]; auto 10.
  Qed.

  Definition valid : Prop :=
    (forall b, o_coverage o = Some b -> In b [Corpus_; Crashes; Hangs; Queue]) /\
    (forall b, o_replay o = Some b -> b <> ImplGenericArgs_ /\ b <> GenericArgs_).

  Lemma valid_iff :
    valid <-> (match o_coverage o with Some b => coverage_object_ok b | None => true end) = true /\
              (match o_replay o with Some b => replay_object_ok b | None => true end) = true.
  Proof.
    unfold valid. split; intros [A B]; split.
    - destruct (o_coverage o) as [b|]; [|reflexivity]. specialize (A b eq_refl).
      destruct b; cbn [In] in A; try reflexivity; exfalso; intuition congruence.
    - destruct (o_replay o) as [b|]; [|reflexivity]. specialize (B b eq_refl).
      destruct b; try reflexivity; exfalso; intuition congruence.
    - intros b E. rewrite E in A. destruct b; try discriminate; cbn [In]; auto.
    - intros b E. rewrite E in B. destruct b; try discriminate; split; discriminate.
  Qed.

  Lemma run_inv m m' t r : run_without_exit_code w o m = (m', t, r) ->
    (exists b, o_coverage o = Some b /\ coverage_object_ok b = false /\ m' = m /\ t = [] /\ r = RErr (invalid_object (lit "--coverage") b)) \/
    (exists b, o_replay o = Some b /\ replay_object_ok b = false /\ match o_coverage o with Some b => coverage_object_ok b | None => true end = true /\
       m' = m /\ t = [] /\ r = RErr (invalid_object (lit "--replay") b)) \/
    (valid /\ pbind (p_prepare w o) (dispatch w o) m = (m', t, r)).
  Proof.
    intros E. unfold run_without_exit_code in E.
    assert (PO : forall name ok x (q : phase unit), pbind (p_object name ok x) (fun _ => q) m = (m', t, r) ->
       (match x with Some b => ok b | None => true end = true /\ q m = (m', t, r)) \/
       (exists b, x = Some b /\ ok b = false /\ m' = m /\ t = [] /\ r = RErr (invalid_object name b))).
    { intros name ok x q H. unfold p_object in H. destruct x as [b|]; [destruct (ok b) eqn:O|].
      - left. split; [reflexivity|]. unfold pbind, pret in H. now destruct (q m) as [[? ?] ?].
      - right. injection H as <- <- <-. eauto 10.
      - left. split; [reflexivity|]. unfold pbind, pret in H. now destruct (q m) as [[? ?] ?]. }
    apply PO in E as [[V1 E]|K]; [|left; exact K]. right.
    apply PO in E as [[V2 E]|(b & K1 & K2 & K)]; [|left; eauto 10]. right.
    split; [apply valid_iff; auto|exact E].
  Qed.

  Lemma run_shape m m' t r : run_without_exit_code w o m = (m', t, r) ->
    (~ valid /\ m' = m /\ t = [] /\ exists e, r = RErr e) \/
    (valid /\ m' = m /\ p_prepare w o m = (m, t, match r with ROk _ => RPanic | RErr e => RErr e | RPanic => RPanic | RExit n => RExit n | RRunning => RRunning end)
       /\ (forall u, r <> ROk u)) \/
    (valid /\ exists t1 t2 l, p_prepare w o m = (m, t1, ROk l) /\ dispatch w o l m = (m', t2, r) /\ t = t1 ++ t2).
  Proof.
    intros E. apply run_inv in E as [(b & E1 & E2 & -> & -> & ->)|[(b & E1 & E2 & _ & -> & -> & ->)|[V E]]].
    1,2: left; split; [intros V; apply valid_iff in V as [V1 V2]; rewrite ?E1 in V1; rewrite ?E1 in V2; congruence|eauto].
    right.
    apply pbind_inv in E as [(m1 & t1 & t2 & l & X & F & ->)|(r1 & X & N1 & N2 & C1 & C2 & C3 & C4)].
    - right. split; [exact V|]. pose proof (prepare_keeps _ _ _ _ X). subst m1. exists t1, t2, l. auto.
    - left. split; [exact V|]. pose proof (prepare_keeps _ _ _ _ X). subst m'. split; [reflexivity|]. split; [|exact N2].
      rewrite X. f_equal. destruct r1 as [a|e| |n|].
      + exfalso. now apply (N1 a).
      + rewrite (proj2 (C1 e) eq_refl). reflexivity.
      + rewrite (proj2 C2 eq_refl). reflexivity.
      + rewrite (proj2 (C3 n) eq_refl). reflexivity.
      + rewrite (proj2 C4 eq_refl). reflexivity.
  Qed.
End W.

(** [--exit-code] only changes the interface. *)
Lemma adjust_same o :
  o_coverage (adjust o) = o_coverage o /\ o_replay (adjust o) = o_replay o /\ o_display (adjust o) = o_display o /\
  o_list (adjust o) = o_list o /\ o_no_run (adjust o) = o_no_run o /\ o_consolidate (adjust o) = o_consolidate o /\
  o_consolidate_all (adjust o) = o_consolidate_all o /\ o_reset (adjust o) = o_reset o /\
  o_reset_all (adjust o) = o_reset_all o /\ o_exit_code (adjust o) = o_exit_code o /\
  o_exact (adjust o) = o_exact o /\ o_ztarget (adjust o) = o_ztarget o /\
  (o_no_ui (adjust o) = o_no_ui o || o_exit_code o).
Proof. unfold adjust. destruct (o_exit_code o) eqn:E; cbn; rewrite ?E, ?orb_true_r, ?orb_false_r; repeat split; reflexivity. Qed.

Lemma run_eq w o m m' t r : run w o m = (m', t, r) ->
  exists r0, run_without_exit_code w (adjust o) m = (m', t, r0) /\
    r = match r0 with RErr e => if o_exit_code o then RExit 2 else RErr e | _ => r0 end.
Proof.
  unfold run. destruct (run_without_exit_code w (adjust o) m) as [[m1 t1] r1] eqn:E. intros H. exists r1.
  destruct r1; injection H as <- <- <-; auto.
Qed.

(** How the parallel loop's result becomes the run's. *)
Definition conv (r : Sched.sresult) : rres unit :=
  match r with
  | Sched.Go _ => RRunning
  | Sched.Finished (Ret _) => ROk tt
  | Sched.Finished (Err e) => RErr e
  | Sched.Finished Panic => RPanic
  | Sched.Exit1 => RExit 1
  end.

(** What is said before the parallel loop. *)
Definition cpu_note (o : opts) (k n : nat) : list act := if n <=? k then [] else [ACpus (too_few_cpus o k n)].

Lemma cpu_note_in o k n a : In a (cpu_note o k n) -> exists s, a = ACpus s.
Proof. unfold cpu_note. destruct (n <=? k); intros []; [eauto|contradiction]. Qed.

Lemma fuzz_cases w o fl m m' t r : p_fuzz w o fl m = (m', t, r) ->
  (exists att ns os n res,
     let k := {| Sched.k_names := map snd fl; Sched.k_cpus := n; Sched.k_no_ui := o_no_ui o; Sched.k_exit_code := o_exit_code o |} in
     t = AGenerate att ns :: cpu_note o n (List.length fl) ++ [AParallel os] /\ fuzz_plan (w_cpus w) o (List.length fl) = Ret (Parallel n) /\
     Sched.run (w_strip w) k (Sched.s_init k) (w_session w) = (res, os) /\ r = conv res) \/
  (exists att ns args, t = [AGenerate att ns; AForeground args] /\ fuzz_plan (w_cpus w) o (List.length fl) = Ret Foreground /\
     r = if w_foreground w then ROk tt else RErr (lit "Command failed")) \/
  (t = [] \/ exists att ns, t = [AGenerate att ns] \/ exists n, t = AGenerate att ns :: cpu_note o n (List.length fl)) /\
    (fl <> [] -> r <> ROk tt) /\ (forall n, r <> RExit n).
Proof.
  intros E. unfold p_fuzz in E. destruct (is_some (o_coverage o)).
  { right. right. injection E as <- <- <-. split; [now left|]. split; [discriminate|congruence]. }
  unfold pbind at 1 in E.
  destruct (auto_generate_corpora _ _ _ _ _) as [[[m1 att] ns] [u|e|]].
  2:{ right. right. injection E as <- <- <-. split; [right; exists att, ns; now left|]. split; [discriminate|congruence]. }
  2:{ right. right. injection E as <- <- <-. split; [right; exists att, ns; now left|]. split; [discriminate|congruence]. }
  unfold pbind at 1, plift at 1 in E. destruct (fuzz_plan (w_cpus w) o (List.length fl)) as [[|n]|e|] eqn:P.
  - destruct (map (λ xt : executable * bytes, (as_exe xt.1, xt.2)) fl) as [|[x tg] xts] eqn:X.
    + right. right. injection E as <- <- <-. split; [right; exists att, ns; now left|]. split; [|congruence].
      intros N. destruct fl; [contradiction|discriminate].
    + unfold pbind at 1, plift at 1 in E. destruct (fuzz_args _ _ _ _ _ _ _) as [args|e|].
      * right. left. exists att, ns, args. unfold pbind, pact in E. unfold perr, plift, pret in E.
        destruct (w_foreground w); injection E as <- <- <-; auto.
      * right. right. injection E as <- <- <-. split; [right; exists att, ns; now left|]. split; [discriminate|congruence].
      * right. right. injection E as <- <- <-. split; [right; exists att, ns; now left|]. split; [discriminate|congruence].
  - assert (C : forall q : phase unit, pbind (if List.length fl <=? n then pret tt else pact (ACpus (too_few_cpus o n (List.length fl)))) (fun _ => q) m1
                = match q m1 with (m2, t2, r2) => (m2, cpu_note o n (List.length fl) ++ t2, r2) end).
    { intros q. unfold cpu_note, pbind, pret, pact. destruct (List.length fl <=? n); now destruct (q m1) as [[? ?] ?]. }
    rewrite C in E. clear C. unfold pbind at 1, plift at 1 in E. destruct (mapM _ _) as [l|e|].
    + left. set (k := {| Sched.k_names := map snd fl; Sched.k_cpus := n; Sched.k_no_ui := o_no_ui o; Sched.k_exit_code := o_exit_code o |}) in *.
      destruct (Sched.run (w_strip w) k (Sched.s_init k) (w_session w)) as [res os] eqn:R. cbn [fst snd] in E.
      exists att, ns, os, n, res. cbv zeta. unfold pbind, pact, plift in E.
      destruct res as [s|[u'|e|]|]; injection E as <- <- <-; (split; [reflexivity|split; [reflexivity|split; [exact R|now try destruct u']]]).
    + right. right. injection E as <- <- <-. split; [right; exists att, ns; right; exists n; cbn [app]; now rewrite app_nil_r|]. split; [discriminate|congruence].
    + right. right. injection E as <- <- <-. split; [right; exists att, ns; right; exists n; cbn [app]; now rewrite app_nil_r|]. split; [discriminate|congruence].
  - right. right. injection E as <- <- <-. split; [right; exists att, ns; now left|]. split; [discriminate|congruence].
  - right. right. injection E as <- <- <-. split; [right; exists att, ns; now left|]. split; [discriminate|congruence].
Qed.

(** The targets shown, in order, up to a failure. *)
Lemma show_entries w o l m m' t : p_show w o l m = (m', t, ROk tt) ->
  exists fl, flatten_executable_targets (o_exact o) (o_ztarget o) l = Ret fl /\
    (chosen_object o <> None ->
     forall xt, In xt fl -> exists b rct raw dir es, chosen_object o = Some b /\
       Entries.flags_and_dir (q_td (w_cargo w)) (w_id w) b (ex_name (fst xt)) (snd xt) = Ret (rct, raw, dir) /\
       In (ATarget (fst xt) (snd xt) dir es) t).
Proof.
  intros E. unfold p_show in E.
  apply pbind_inv in E as [(m1 & t1 & t2 & a & X & E & ->)|(r1 & _ & _ & N & _)]; [|exfalso; now apply (N tt)].
  apply pbind_inv in E as [(m3 & t3 & t4 & fl & X3 & E & ->)|(r1 & _ & _ & N & _)]; [|exfalso; now apply (N tt)].
  apply pbind_inv in E as [(m5 & t5 & t6 & u & X5 & E & ->)|(r1 & _ & _ & N & _)]; [|exfalso; now apply (N tt)].
  exists fl. split.
  { unfold plift in X3. destruct (flatten_executable_targets _ _ _); congruence. }
  intros C xt I. clear X X3 E. generalize dependent (1 <? List.length fl). intros multiple X5. revert m3 m5 t5 X5. induction fl as [|xt' fl IH]; intros m3 m5 t5 X5; [destruct I|].
  cbn [pfor] in X5. apply pbind_inv in X5 as [(m7 & t7 & t8 & v & X7 & X8 & ->)|(r1 & _ & _ & N & _)]; [|exfalso; now apply (N u)].
  destruct I as [->|I].
  - apply pbind_inv in X7 as [(mh & th & t7' & vh & _ & X7 & ->)|(r1 & _ & _ & N & _)]; [|exfalso; now apply (N v)].
    unfold p_entries in X7. destruct (chosen_object o) as [b|]; [|contradiction].
    apply pbind_inv in X7 as [(m9 & t9 & t10 & [[rct raw] dir] & X9 & X10 & ->)|(r1 & _ & _ & N & _)]; [|exfalso; now apply (N v)].
    apply pbind_inv in X10 as [(m11 & t11 & t12 & z & X11 & X12 & ->)|(r1 & _ & _ & N & _)]; [|exfalso; now apply (N v)].
    injection X11 as <- <- <-. unfold plift in X9.
    destruct (Entries.flags_and_dir _ _ _ _ _) as [f|e|] eqn:F; try congruence. injection X9 as <- <- ->.
    exists b, rct, raw, dir. eexists. split; [reflexivity|]. split; [exact F|].
    rewrite !in_app_iff. cbn [In]. tauto.
  - destruct (IH I m7 m5 t8 X8) as (b & rct & raw & dir & es & H1 & H2 & H3). exists b, rct, raw, dir, es.
    split; [exact H1|]. split; [exact H2|]. rewrite !in_app_iff in *. tauto.
Qed.

(** Every processed directory is that of the first given of coverage, display, replay. *)
Definition target_dir_ok (w : world) (o : opts) (a : act) : Prop :=
  match a with
  | ATarget x t dir _ =>
      exists b rct raw, chosen_object o = Some b /\
        Entries.flags_and_dir (q_td (w_cargo w)) (w_id w) b (ex_name x) t = Ret (rct, raw, dir)
  | _ => True
  end.

Lemma show_dirs w o l : within (target_dir_ok w o) (p_show w o l).
Proof.
  unfold p_show, p_report, perr. apply within_bind.
  { destruct (is_some _); [|apply within_ret]. apply within_bind; [now apply within_act|]. intros _. destruct (w_clean w); phase_tac. }
  intros _. apply within_bind; [apply within_lift|]. intros fl. apply within_bind.
  { apply within_for. intros [x tg]. apply within_bind; [unfold p_heading; destruct (1 <? List.length fl); phase_tac|]. intros _. unfold p_entries. destruct (chosen_object o) as [b|] eqn:C; [|apply within_ret].
    intros m m' t r E. cbn [fst snd] in E.
    apply pbind_inv in E as [(m1 & t1 & t2 & [[rct raw] dir] & X & E & ->)|(r1 & X & _)].
    - unfold plift in X. destruct (Entries.flags_and_dir _ _ _ _ _) as [f|e|] eqn:F; try congruence. injection X as <- <- ->.
      cbn [app]. revert E. apply within_bind; [|intros _; apply within_lift].
      apply within_act. exists b, rct, raw. auto.
    - injection X as _ <- _. constructor. }
  intros _. destruct (is_some _); [|apply within_ret]. destruct (w_lcov w) as [e|]; [|apply within_lift].
  apply within_bind; [destruct e; phase_tac|]. intros _. apply within_bind; [now apply within_act|]. intros _. destruct (w_report w _); phase_tac.
Qed.

(** Selected by the target name on the command line, if one is given. *)
Definition selected (o : opts) (tg : str) : Prop :=
  match o_ztarget o with None => True | Some pat => selects (o_exact o) pat tg end.

Lemma filter_pairs {E} exact pat (l : list (E * list str)) x tg :
  (exists ts, In (x, ts) (filter_executable_targets exact pat l) /\ In tg ts) <->
  (exists ts, In (x, ts) l /\ In tg ts) /\ selects exact pat tg.
Proof.
  assert (FT : forall ts, In tg (filter_targets exact pat ts) <-> In tg ts /\ selects exact pat tg).
  { intros ts. unfold filter_targets. rewrite filter_In. now rewrite selects_bool. }
  induction l as [|[e ts] l IH]; cbn [filter_executable_targets].
  - split; [intros (ts & [] & _)|intros ((ts & [] & _) & _)].
  - destruct (filter_targets exact pat ts) as [|t0 ts0] eqn:F.
    + rewrite IH. split.
      * intros ((ts' & I & J) & S0). split; [|exact S0]. exists ts'. split; [now right|exact J].
      * intros ((ts' & [I|I] & J) & S0).
        -- injection I as -> ->. exfalso. assert (K : In tg (filter_targets exact pat ts')) by (apply FT; auto). rewrite F in K. destruct K.
        -- split; [now exists ts'|exact S0].
    + split.
      * intros (ts' & [I|I] & J).
        -- injection I as -> <-. rewrite <- F in J. apply FT in J as [J S0]. split; [exists ts; split; [now left|exact J]|exact S0].
        -- destruct (proj1 IH (ex_intro _ ts' (conj I J))) as ((ts2 & I2 & J2) & S0). split; [exists ts2; split; [now right|exact J2]|exact S0].
      * intros ((ts' & [I|I] & J) & S0).
        -- injection I as -> ->. exists (t0 :: ts0). split; [now left|]. rewrite <- F. apply FT. auto.
        -- destruct (proj2 IH (conj (ex_intro _ ts' (conj I J)) S0)) as (ts2 & I2 & J2). exists ts2. split; [now right|exact J2].
Qed.

Lemma pfor_acts {A} (g : A -> act) l m m' t r : pfor (fun x => pact (g x)) l m = (m', t, r) -> t = map g l /\ r = ROk tt.
Proof.
  revert m m' t r. induction l as [|x l IH]; intros m m' t r E.
  - injection E as <- <- <-. auto.
  - cbn [pfor] in E. unfold pbind at 1, pact at 1 in E. destruct (pfor _ l m) as [[m2 t2] r2] eqn:F.
    destruct (IH _ _ _ _ F) as [-> ->]. injection E as <- <- <-. auto.
Qed.

(** What the executables say, if all can be asked. *)
Lemma targets_ok w o xs m m' t l : p_targets w o xs m = (m', t, ROk l) ->
  exists l1, mapM (fun e => bind (targets (w_listing w e)) (fun ts => Ret (e, ts))) xs = Ret l1 /\ t = map (fun x => AListTests x) xs /\
    l = match o_ztarget o with
        | Some pat => filter_executable_targets (o_exact o) pat (List.filter (fun et => match snd et with [] => false | _ => true end) l1)
        | None => List.filter (fun et => match snd et with [] => false | _ => true end) l1
        end.
Proof.
  intros E. unfold p_targets in E.
  apply pbind_inv in E as [(n1 & u1 & u2 & ls & Y & E & ->)|(r1 & _ & _ & N & _)]; [|exfalso; eapply N; reflexivity].
  exists ls. assert (u2 = [] /\ l = match o_ztarget o with
        | Some pat => filter_executable_targets (o_exact o) pat (List.filter (fun et => match snd et with [] => false | _ => true end) ls)
        | None => List.filter (fun et => match snd et with [] => false | _ => true end) ls
        end) as [-> ->] by (unfold pret in E; split; congruence).
  rewrite app_nil_r. clear E. enough (mapM (fun e => bind (targets (w_listing w e)) (fun ts => Ret (e, ts))) xs = Ret ls /\ u1 = map (fun x => AListTests x) xs) by tauto.
  revert m n1 u1 ls Y. induction xs as [|x xs IH]; intros m n1 u1 ls Y; cbn [pmap] in Y.
  { assert (u1 = [] /\ ls = []) as [-> ->] by (unfold pret in Y; split; congruence). auto. }
  apply pbind_inv in Y as [(n2 & u2 & u3 & b & Y1 & Y & ->)|(r1 & _ & _ & N & _)]; [|exfalso; eapply N; reflexivity].
  apply pbind_inv in Y as [(n4 & u4 & u5 & bs & Y2 & Y & ->)|(r1 & _ & _ & N & _)]; [|exfalso; eapply N; reflexivity].
  assert (u5 = [] /\ ls = b :: bs) as [-> ->] by (unfold pret in Y; split; congruence).
  destruct (IH _ _ _ _ Y2) as [M ->]. cbn [mapM map]. unfold pbind, pact, plift, pret in Y1.
  destruct (targets (w_listing w x)) as [ts|e|]; try discriminate Y1. cbn [bind]. rewrite M. cbn [bind app] in *.
  assert (b = (x, ts) /\ u2 = [AListTests x]) as [-> ->] by (split; congruence). rewrite app_nil_r. auto.
Qed.

(** The targets kept by the preparation are those of the executables' listings that are selected. *)
Lemma prepare_targets w o m m' t l : p_prepare w o m = (m', t, ROk l) ->
  forall x tg, (exists ts, In (x, ts) l /\ In tg ts) <->
    In (AListTests x) t /\ (exists ts, targets (w_listing w x) = Ret ts /\ In tg ts) /\ selected o tg.
Proof.
  intros E x tg. unfold p_prepare in E.
  apply pbind_inv in E as [(m1 & t1 & t2 & a & X1 & E & ->)|(r1 & _ & _ & N & _)]; [|exfalso; eapply N; reflexivity].
  injection X1 as <- <-. 
  apply pbind_inv in E as [(m3 & t3 & t4 & afl & X3 & E & ->)|(r1 & _ & _ & N & _)]; [|exfalso; eapply N; reflexivity].
  apply pbind_inv in E as [(m5 & t5 & t6 & xs & X5 & E & ->)|(r1 & _ & _ & N & _)]; [|exfalso; eapply N; reflexivity].
  apply pbind_inv in E as [(m7 & t7 & t8 & l0 & X7 & E & ->)|(r1 & _ & _ & N & _)]; [|exfalso; eapply N; reflexivity].
  apply pbind_inv in E as [(m9 & t9 & t10 & u & X9 & E & ->)|(r1 & _ & _ & N & _)]; [|exfalso; eapply N; reflexivity].
  injection E as <- <- ->.
  assert (T3 : t3 = []) by (unfold plift in X3; congruence).
  assert (T5 : ~ In (AListTests x) t5).
  { unfold p_build in X5. 
    apply pbind_inv in X5 as [(n1 & u1 & u2 & b & Y1 & X5 & ->)|(r1 & _ & _ & N & _)]; [|exfalso; eapply N; reflexivity].
    destruct b as [c [[md td] env]]. cbn [snd] in X5.
    apply pbind_inv in X5 as [(n3 & u3 & u4 & b & Y3 & X5 & ->)|(r1 & _ & _ & N & _)]; [|exfalso; eapply N; reflexivity].
    injection Y3 as <- <-. assert (u1 = []) as -> by (unfold plift in Y1; congruence).
    assert (u4 = []) as ->.
    { unfold perr in X5. destruct (w_build _ _) as [[[|] ms]|]; [unfold plift in X5; congruence| |discriminate X5].
      apply pbind_inv in X5 as [(n5 & u5 & u6 & v & Y5 & X5 & ->)|(r1 & _ & _ & N & _)]; [discriminate X5|exfalso; eapply N; reflexivity]. }
    intros [K|[]]. discriminate. }
  assert (T9 : ~ In (AListTests x) t9).
  { unfold p_versions in X9.
    apply pbind_inv in X9 as [(n1 & u1 & u2 & b & Y1 & X9 & ->)|(r1 & _ & _ & N & _)]; [|exfalso; eapply N; reflexivity].
    apply pfor_acts in Y1 as [-> _].
    assert (u2 = []) as -> by (unfold perr, plift, pret in X9; destruct (snd _); congruence).
    rewrite app_nil_r, in_map_iff. intros (? & K & _). discriminate. }
  apply targets_ok in X7 as (l1 & M & -> & L0).
  assert (IT : In (AListTests x) ([AVersion] ++ t3 ++ t5 ++ map (fun x => AListTests x) xs ++ t9 ++ []) <-> In x xs).
  { rewrite T3, !in_app_iff, in_map_iff. cbn [In]. split.
    - intros [[K|[]]|[[]|[K|[(z & K & I)|[K|[]]]]]]; try discriminate; try contradiction. congruence.
    - intros I. right. right. right. left. now exists x. }
  rewrite IT. clear IT T5 T9.
  apply mapM_listing in M as [M1 M2].
  assert (LS : (exists ts, In (x, ts) (List.filter (fun et => match snd et with [] => false | _ => true end) l1) /\ In tg ts) <->
               In x xs /\ (exists ts, targets (w_listing w x) = Ret ts /\ In tg ts)).
  { rewrite Forall_forall in M2. split.
    - intros (ts & I & J). apply filter_In in I as [I _]. split.
      + rewrite <- M1. apply in_map_iff. now exists (x, ts).
      + exists ts. split; [|exact J]. now apply (M2 (x, ts)), elem_of_list_In.
    - intros (I & ts & T & J). rewrite <- M1 in I. apply in_map_iff in I as ([x' ts'] & K & I). cbn [fst] in K. subst x'.
      assert (T2 := M2 _ (proj2 (elem_of_list_In _ _) I)). cbn [fst snd] in T2. assert (ts' = ts) by congruence. subst ts'.
      exists ts. split; [|exact J]. apply filter_In. split; [exact I|]. cbn [snd]. destruct ts; [destruct J|reflexivity]. }
  subst l. unfold selected. destruct (o_ztarget o) as [pat|].
  - rewrite filter_pairs, LS. tauto.
  - rewrite LS. tauto.
Qed.

(** Flattening keeps exactly the pairs. *)
Lemma flatten_in {E} exact zt (l : list (E * list str)) fl x tg : flatten_executable_targets exact zt l = Ret fl ->
  (In (x, tg) fl <-> exists ts, In (x, ts) l /\ In tg ts).
Proof.
  unfold flatten_executable_targets. set (f := flat_map _ l). assert (H : In (x, tg) f <-> exists ts, In (x, ts) l /\ In tg ts).
  { subst f. rewrite in_flat_map. split.
    - intros ([x' ts] & I & J). cbn [fst snd] in J. apply in_map_iff in J as (t' & K & J). injection K as -> ->. now exists ts.
    - intros (ts & I & J). exists (x, ts). split; [exact I|]. cbn [fst snd]. apply in_map_iff. now exists tg. }
  destruct f as [|z f]; [discriminate|]. intros [= <-]. exact H.
Qed.

(** Only flattened targets are shown. *)
Definition target_from (o : opts) (l : list (executable * list str)) (a : act) : Prop :=
  match a with
  | ATarget x t _ _ => exists fl, flatten_executable_targets (o_exact o) (o_ztarget o) l = Ret fl /\ In (x, t) fl
  | _ => True
  end.

Lemma within_for_in (Q : act -> Prop) {A} (f : A -> phase unit) l : (forall a, In a l -> within Q (f a)) -> within Q (pfor f l).
Proof.
  intros H. induction l as [|a l IH]; [apply within_ret|]. apply within_bind; [apply H; now left|].
  intros _. apply IH. intros b I. apply H. now right.
Qed.

Lemma within_lift_bind (Q : act -> Prop) {A B} (x : outcome A) (f : A -> phase B) :
  (forall a, x = Ret a -> within Q (f a)) -> within Q (pbind (plift x) f).
Proof.
  intros H m m' t r E. apply pbind_inv in E as [(m1 & t1 & t2 & a & X & E & ->)|(r1 & X & _)].
  - unfold plift in X. destruct x as [a'|e|]; try congruence. injection X as <- <- ->. exact (H a eq_refl _ _ _ _ E).
  - injection X as _ <- _. constructor.
Qed.

Lemma show_targets w o l : within (target_from o l) (p_show w o l).
Proof.
  unfold p_show, p_report, perr. apply within_bind.
  { destruct (is_some _); [|apply within_ret]. apply within_bind; [now apply within_act|]. intros _. destruct (w_clean w); phase_tac. }
  intros _. apply within_lift_bind. intros fl F. apply within_bind.
  { apply within_for_in. intros [x tg] I. apply within_bind; [unfold p_heading; destruct (1 <? List.length fl); phase_tac|]. intros _. unfold p_entries. destruct (chosen_object o) as [b|] eqn:C; [|apply within_ret].
    apply within_bind; [apply within_lift|]. intros [[rct raw] dir]. apply within_bind; [|intros _; apply within_lift].
    apply within_act. exists fl. auto. }
  intros _. destruct (is_some _); [|apply within_ret]. destruct (w_lcov w) as [e|]; [|apply within_lift].
  apply within_bind; [destruct e; phase_tac|]. intros _. apply within_bind; [now apply within_act|]. intros _. destruct (w_report w _); phase_tac.
Qed.
