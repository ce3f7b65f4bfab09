(** C42-C44: whole invocations. *)
From Coq Require Import String List Ascii Bool Arith NArith Lia.
From stdpp Require Import gmap strings.
From Verif Require Import Base Utf8 Lossy Env Dirs Opts Targets Semver Sha1 Fs Write Meta FuzzCmd Build AutoGen Run RunFacts.
From Verif Require Decimal Consolidate Entries Lines Sched Ui PropsSched PropsFuzzCmd.
Import ListNotations.
Local Open Scope nat_scope.

(** What an invocation is asked to do; preparation is always the same. *)
Definition asks_clear (o : opts) : Prop :=
  o_consolidate o = true \/ o_consolidate_all o = true \/ o_reset o = true \/ o_reset_all o = true.
Definition asks_show (o : opts) : Prop := o_coverage o <> None \/ o_display o <> None \/ o_replay o <> None.

Definition asks (o : opts) (j : job) : Prop :=
  match j with
  | JList => o_list o = true
  | JClear => o_list o = false /\ o_no_run o = false /\ asks_clear o
  | JShow => o_list o = false /\ o_no_run o = false /\ ~ asks_clear o /\ asks_show o
  | JFuzz => o_list o = false /\ o_no_run o = false /\ ~ asks_clear o /\ ~ asks_show o
  end.

Lemma clear_true o : o_consolidate_all o || o_reset_all o = true \/ o_consolidate o || o_reset o = true -> asks_clear o.
Proof. unfold asks_clear. intros [H|H]; apply orb_true_iff in H as [H|H]; auto. Qed.

Lemma clear_false o : o_consolidate_all o || o_reset_all o = false -> o_consolidate o || o_reset o = false -> ~ asks_clear o.
Proof. intros H1 H2. apply orb_false_iff in H1 as [A B], H2 as [C D]. unfold asks_clear. intuition congruence. Qed.

Lemma show_bool o : is_some (o_coverage o) || is_some (o_display o) || is_some (o_replay o) = true <-> asks_show o.
Proof.
  unfold asks_show. destruct (o_coverage o), (o_display o), (o_replay o); cbn; intuition congruence.
Qed.

Lemma asks_unique o j j' : asks o j -> asks o j' -> j = j'.
Proof. destruct j, j'; cbn [asks]; try reflexivity; intuition congruence. Qed.

Lemma adjust_asks o j : asks (adjust o) j <-> asks o j.
Proof.
  pose proof (adjust_same o) as (A1 & A2 & A3 & A4 & A5 & A6 & A7 & A8 & A9 & _).
  destruct j; cbn [asks]; unfold asks_clear, asks_show; rewrite ?A1, ?A2, ?A3, ?A4, ?A5, ?A6, ?A7, ?A8, ?A9; reflexivity.
Qed.

Lemma dispatch_job w o l m m' t r a : dispatch w o l m = (m', t, r) -> In a t -> exists j, act_job a = Some j /\ asks o j.
Proof.
  intros E I. apply dispatch_cases in E as [(L & _ & -> & _)|[(_ & _ & _ & -> & _)|[(L & N & C & E)|[(L & N & C1 & C & E)|[(L & N & C1 & C2 & S0 & E)|(L & N & C1 & C2 & S0 & E)]]]]].
  - destruct I as [<-|[]]. exists JList. now split.
  - destruct I.
  - apply clear_within in E. rewrite Forall_forall in E. exists JClear. split; [apply E; now apply elem_of_list_In|].
    cbn [asks]. auto using clear_true.
  - apply clear_within in E. rewrite Forall_forall in E. exists JClear. split; [apply E; now apply elem_of_list_In|].
    cbn [asks]. auto using clear_true.
  - apply show_within in E. rewrite Forall_forall in E. exists JShow. split; [apply E; now apply elem_of_list_In|].
    cbn [asks]. split; [exact L|]. split; [exact N|]. split; [now apply clear_false|]. now apply show_bool.
  - assert (W : within (of_job JFuzz) (pbind (plift (flatten_executable_targets (E := executable) (o_exact o) (o_ztarget o) l)) (p_fuzz w o)))
      by (apply within_bind; [apply within_lift|intros fl; apply fuzz_within]).
    apply W in E. rewrite Forall_forall in E. exists JFuzz. split; [apply E; now apply elem_of_list_In|].
    cbn [asks]. split; [exact L|]. split; [exact N|]. split; [now apply clear_false|]. rewrite <- show_bool. congruence.
Qed.

(** ** C42 *)

(** Everything an invocation does beyond preparing is of the one kind it asks for. *)
Theorem C42_one_kind :
  forall (w : world) (o : opts) (m m' : fs) (t : list act) (r : rres unit),
    run w o m = (m', t, r) ->
    (forall a j, In a t -> act_job a = Some j -> asks o j) /\
    (forall a b j k, In a t -> In b t -> act_job a = Some j -> act_job b = Some k -> j = k).
Proof.
  intros w o m m' t r E.
  assert (H : forall a j, In a t -> act_job a = Some j -> asks o j).
  { intros a j I J. apply run_eq in E as (r0 & E & _). apply adjust_asks.
    apply run_shape in E as [(_ & _ & -> & _)|[(_ & _ & P & _)|(_ & t1 & t2 & l & P & D & ->)]]; [destruct I| |].
    - apply prepare_within in P. rewrite Forall_forall in P. apply elem_of_list_In in I. apply P in I. unfold prep in I. congruence.
    - apply in_app_iff in I as [I|I].
      + apply prepare_within in P. rewrite Forall_forall in P. apply elem_of_list_In in I. apply P in I. unfold prep in I. congruence.
      + destruct (dispatch_job _ _ _ _ _ _ _ _ D I) as (j' & J' & A). congruence. }
  split; [exact H|]. intros a b j k Ia Ib Ja Jb. exact (asks_unique o j k (H a j Ia Ja) (H b k Ib Jb)).
Qed.
Print Assumptions C42_one_kind.

(** Invalid objects are rejected before anything at all is done; the message names the
    option and the object as they are written on the command line. *)
Theorem C42_invalid_rejected :
  forall (w : world) (o : opts) (m : fs),
    let bad_coverage := [(CorpusInstrumented, "corpus-instrumented"); (CrashesInstrumented, "crashes-instrumented");
                         (GenericArgs_, "generic-args"); (HangsInstrumented, "hangs-instrumented");
                         (ImplGenericArgs_, "impl-generic-args"); (QueueInstrumented, "queue-instrumented")]%string in
    let bad_replay := [(GenericArgs_, "generic-args"); (ImplGenericArgs_, "impl-generic-args")]%string in
    let rejected text := run w o m = (m, [], if o_exit_code o then RExit 2 else RErr text) in
    (forall b word, o_coverage o = Some b -> In (b, word) bad_coverage ->
       rejected (lit "`--coverage " ++ lit word ++ lit "` is invalid.")) /\
    (forall b word, (forall c, o_coverage o = Some c -> ~ In c (map fst bad_coverage)) ->
       o_replay o = Some b -> In (b, word) bad_replay ->
       rejected (lit "`--replay " ++ lit word ++ lit "` is invalid.")).
Proof.
  intros w o m bc br rejected. pose proof (adjust_same o) as (A1 & A2 & _).
  assert (X : forall e, run_without_exit_code w (adjust o) m = (m, [], RErr e) -> rejected e).
  { intros e E. unfold rejected, run. rewrite E. reflexivity. }
  split.
  - intros b word B I. apply X. clear X. unfold run_without_exit_code. rewrite A1, B. subst bc.
    destruct I as [I|[I|[I|[I|[I|[I|[]]]]]]]; injection I as <- <-; vm_compute; reflexivity.
  - intros b word N B I. apply X. clear X. unfold run_without_exit_code. rewrite A1, A2, B.
    assert (C : pbind (p_object (lit "--coverage") coverage_object_ok (o_coverage o))
                (fun _ => do_ p_object (lit "--replay") replay_object_ok (Some b); do l <- p_prepare w (adjust o); dispatch w (adjust o) l) m
              = (do_ p_object (lit "--replay") replay_object_ok (Some b); do l <- p_prepare w (adjust o); dispatch w (adjust o) l) m).
    { destruct (o_coverage o) as [c|].
      - specialize (N c eq_refl). assert (O : coverage_object_ok c = true).
        { destruct c; try reflexivity; exfalso; apply N; subst bc; cbn; tauto. }
        unfold p_object at 1. rewrite O. unfold pbind at 1, pret. now destruct (pbind _ _ m) as [[? ?] ?].
      - unfold p_object at 1, pbind at 1, pret. now destruct (pbind _ _ m) as [[? ?] ?]. }
    rewrite C. clear C. subst br. destruct I as [I|[I|[]]]; injection I as <- <-; vm_compute; reflexivity.
Qed.
Print Assumptions C42_invalid_rejected.

(** Listing, building only, and showing change no data directory; only resetting,
    consolidating and auto-generation do. *)
Theorem C42_data_untouched :
  forall (w : world) (o : opts) (m m' : fs) (t : list act) (r : rres unit),
    run w o m = (m', t, r) ->
    o_list o = true \/ o_no_run o = true \/ (~ asks_clear o /\ asks_show o) -> m' = m.
Proof.
  intros w o m m' t r E H. apply run_eq in E as (r0 & E & _).
  pose proof (adjust_same o) as (A1 & A2 & A3 & A4 & A5 & A6 & A7 & A8 & A9 & _).
  apply run_shape in E as [(_ & E & _)|[(_ & E & _)|(_ & t1 & t2 & l & P & D & ->)]]; [exact E|exact E|].
  apply dispatch_cases in D as [(L & E & _)|[(_ & _ & E & _)|[(L & N & C & _)|[(L & N & C1 & C & _)|[(L & N & C1 & C2 & S0 & E)|(L & N & C1 & C2 & S0 & E)]]]]].
  - exact E.
  - exact E.
  - exfalso. rewrite A4 in L. rewrite A5 in N. rewrite A7, A9 in C.
    destruct H as [H|[H|[H _]]]; [congruence|congruence|]. apply H. now apply clear_true; left.
  - exfalso. rewrite A4 in L. rewrite A5 in N. rewrite A6, A8 in C.
    destruct H as [H|[H|[H _]]]; [congruence|congruence|]. apply H. now apply clear_true; right.
  - eapply show_keeps; eauto.
  - exfalso. rewrite A4 in L. rewrite A5 in N. rewrite A1, A2, A3 in S0.
    destruct H as [H|[H|[_ H]]]; [congruence|congruence|]. apply show_bool in H. congruence.
Qed.
Print Assumptions C42_data_untouched.

Lemma p_io_trace a f m m' t r : p_io a f m = (m', t, r) -> t = [a].
Proof. unfold p_io. destruct (f m) as [[m2 h] [u|e|]]; congruence. Qed.

(** A successful invocation has done what it asks for. *)
Theorem C42_success_means_done :
  forall (w : world) (o : opts) (m m' : fs) (t : list act),
    run w o m = (m', t, ROk tt) ->
    (asks o JList -> exists l, In (APrintList l) t) /\
    (asks o JClear -> In AReset t /\
       (o_consolidate_all o = true \/ (o_consolidate o = true /\ o_reset_all o = false) -> In AConsolidate t)) /\
    (asks o JShow -> exists x tg dir es, In (ATarget x tg dir es) t) /\
    (asks o JFuzz -> exists att notes, In (AGenerate att notes) t /\
       ((exists args, In (AForeground args) t) \/ exists os, In (AParallel os) t)).
Proof.
  intros w o m m' t E. apply run_eq in E as (r0 & E & R).
  assert (r0 = ROk tt) by (destruct r0 as [[]|e| |n|]; try congruence; destruct (o_exit_code o); congruence). subst r0. clear R.
  pose proof (adjust_same o) as (A1 & A2 & A3 & A4 & A5 & A6 & A7 & A8 & A9 & _).
  rewrite <- !(adjust_asks o). rewrite <- A6, <- A7, <- A9. clear A1 A2 A3 A4 A5 A6 A7 A8 A9. revert E. generalize (adjust o). clear o. intros o E.
  apply run_shape in E as [(_ & _ & _ & e & K)|[(_ & _ & _ & K)|(_ & t1 & t2 & l & P & D & ->)]]; [congruence|exfalso; now apply (K tt)|].
  apply dispatch_cases in D as [(L & _ & -> & _)|[(L & N & _ & -> & _)|[(L & N & C & D)|[(L & N & C1 & C & D)|[(L & N & C1 & C2 & S0 & D)|(L & N & C1 & C2 & S0 & D)]]]]].
  - split; [intros _; exists l; rewrite in_app_iff; right; now left|].
    cbn [asks]. rewrite L. split; [intros [K _]; congruence|]. split; intros [K _]; congruence.
  - cbn [asks]. rewrite L, N. split; [congruence|]. split; [intros (_ & K & _); congruence|]. split; intros (_ & K & _); congruence.
  - assert (AC : asks_clear o) by (apply clear_true; now left).
    split; [cbn [asks]; congruence|]. split; [|split; cbn [asks]; intros (_ & _ & K & _); contradiction].
    intros _. unfold p_clear in D. apply pbind_inv in D as [(m1 & t3 & t4 & a & X & D & ->)|(r1 & _ & _ & K & _)]; [|exfalso; now apply (K tt)].
    assert (AR : In AReset t4).
    { apply p_io_trace in D. subst t4. now left. }
    split; [rewrite !in_app_iff; auto|]. intros K. rewrite !in_app_iff. right. left.
    assert (CA : o_consolidate_all o = true).
    { destruct K as [K|[_ K]]; [exact K|]. apply orb_true_iff in C as [C|C]; congruence. }
    rewrite CA in X. apply p_io_trace in X. subst t3. now left.
  - assert (AC : asks_clear o) by (apply clear_true; now right).
    split; [cbn [asks]; congruence|]. split; [|split; cbn [asks]; intros (_ & _ & K & _); contradiction].
    intros _. unfold p_clear in D. apply pbind_inv in D as [(m1 & t3 & t4 & a & X & D & ->)|(r1 & _ & _ & K & _)]; [|exfalso; now apply (K tt)].
    assert (AR : In AReset t4).
    { apply p_io_trace in D. subst t4. now left. }
    split; [rewrite !in_app_iff; auto|]. intros K. rewrite !in_app_iff. right. left.
    apply orb_false_iff in C1 as [C1 C3].
    assert (CA : o_consolidate o = true) by (destruct K as [K|[K _]]; congruence).
    rewrite CA in X. apply p_io_trace in X. subst t3. now left.
  - assert (AC : ~ asks_clear o) by now apply clear_false. apply show_bool in S0.
    split; [cbn [asks]; congruence|]. split; [cbn [asks]; intros (_ & _ & K); contradiction|].
    split; [|cbn [asks]; intros (_ & _ & _ & K); contradiction].
    intros _. destruct (show_entries _ _ _ _ _ _ D) as (fl & F & H).
    assert (CO : chosen_object o <> None).
    { unfold chosen_object. destruct S0 as [K|[K|K]]; destruct (o_coverage o), (o_display o), (o_replay o); congruence. }
    assert (FN : exists xt, In xt fl).
    { unfold flatten_executable_targets in F. destruct (flat_map _ l) as [|xt fl']; [discriminate|]. injection F as <-. exists xt. now left. }
    destruct FN as ([x tg] & I). destruct (H CO _ I) as (b & rct & raw & dir & es & _ & _ & J).
    exists x, tg, dir, es. rewrite in_app_iff. auto.
  - assert (AC : ~ asks_clear o) by now apply clear_false.
    assert (AS : ~ asks_show o) by (rewrite <- show_bool; congruence).
    split; [cbn [asks]; congruence|]. split; [cbn [asks]; intros (_ & _ & K); contradiction|].
    split; [cbn [asks]; intros (_ & _ & _ & K); contradiction|]. intros _.
    apply pbind_inv in D as [(m1 & t3 & t4 & fl & X & D & ->)|(r1 & _ & _ & K & _)]; [|exfalso; now apply (K tt)].
    assert (FN : fl <> []).
    { unfold plift, flatten_executable_targets in X. destruct (flat_map _ l) as [|xt fl']; [congruence|].
      injection X as _ _ <-. discriminate. }
    apply fuzz_cases in D as [(att & ns & os & n & res & -> & _)|[(att & ns & args & -> & _)|(_ & K & _)]].
    + exists att, ns. split; [rewrite !in_app_iff; right; right; now left|]. right. exists os. rewrite !in_app_iff. right; right; right.
      rewrite in_app_iff. right. now left.
    + exists att, ns. split; [rewrite !in_app_iff; right; right; now left|]. left. exists args. rewrite !in_app_iff. right; right; right; now left.
    + exfalso. now apply (K FN).
Qed.
Print Assumptions C42_success_means_done.

(** Showing reaches exactly the selected targets that the executables list. *)
Theorem C42_shown_targets_exact :
  forall (w : world) (o : opts) (m m' : fs) (t : list act),
    run w o m = (m', t, ROk tt) -> asks o JShow ->
    forall x tg,
      (exists dir es, In (ATarget x tg dir es) t) <->
      In (AListTests x) t /\ (exists ts, targets (w_listing w x) = Ret ts /\ In tg ts) /\
      match o_ztarget o with
      | None => True
      | Some pat => if o_exact o then tg = pat else exists a b, tg = a ++ pat ++ b
      end.
Proof.
  intros w o m m' t E A x tg. apply run_eq in E as (r0 & E & R).
  assert (r0 = ROk tt) by (destruct r0 as [[]|e| |n|]; try congruence; destruct (o_exit_code o); congruence). subst r0. clear R.
  pose proof (adjust_same o) as (_ & _ & _ & _ & _ & _ & _ & _ & _ & _ & AE & AZ & _).
  apply adjust_asks in A. destruct A as (L & N & C & S0).
  apply run_shape in E as [(_ & _ & _ & e & K)|[(_ & _ & _ & K)|(_ & t1 & t2 & l & P & D & ->)]]; [congruence|exfalso; now apply (K tt)|].
  pose proof (prepare_targets _ _ _ _ _ _ P x tg) as PT.
  unfold selected, selects in PT. rewrite AE, AZ in PT.
  apply dispatch_cases in D as [(L' & _)|[(_ & N' & _)|[(_ & _ & C' & D)|[(_ & _ & _ & C' & D)|[(_ & _ & _ & _ & _ & D)|(_ & _ & _ & _ & S' & D)]]]]]; try congruence.
  - exfalso. apply C. apply clear_true. now left.
  - exfalso. apply C. apply clear_true. now right.
  - assert (IL : In (AListTests x) (t1 ++ t2) <-> In (AListTests x) t1).
    { rewrite in_app_iff. split; [|now left]. intros [I|I]; [exact I|]. apply show_within in D. rewrite Forall_forall in D.
      apply elem_of_list_In in I. apply D in I. discriminate. }
    rewrite IL, <- PT. split.
    + intros (dir & es & I). apply in_app_iff in I as [I|I].
      { apply prepare_within in P. rewrite Forall_forall in P. apply elem_of_list_In in I. apply P in I. discriminate. }
      apply show_targets in D. rewrite Forall_forall in D. apply elem_of_list_In in I. apply D in I.
      destruct I as (fl & F & I). now apply (flatten_in _ _ _ _ x tg F).
    + intros J. destruct (show_entries _ _ _ _ _ _ D) as (fl & F & H).
      assert (CO : chosen_object (adjust o) <> None).
      { unfold chosen_object, asks_show in *. destruct (o_coverage (adjust o)), (o_display (adjust o)), (o_replay (adjust o)); try congruence. intuition. }
      apply (flatten_in _ _ _ _ x tg F) in J. destruct (H CO _ J) as (b & rct & raw & dir & es & _ & _ & I).
      exists dir, es. rewrite in_app_iff. now right.
  - exfalso. apply show_bool in S0. congruence.
Qed.
Print Assumptions C42_shown_targets_exact.

(** Before any work the program has been built, with the command line of C77. *)
Theorem C42_built_first :
  forall (w : world) (o : opts) (m m' : fs) (t t1 t2 : list act) (r : rres unit) a,
    run w o m = (m', t, r) -> t = t1 ++ a :: t2 -> act_job a <> None ->
    exists tdir, own_target_directory (q_td (w_cargo w)) (adjust o) = Ret tdir /\
      In (ABuild (build_args (adjust o) tdir (w_terminal w)) (silence_stderr (adjust o))) t1.
Proof.
  intros w o m m' t t1 t2 r a E T J. apply run_eq in E as (r0 & E & _).
  apply run_shape in E as [(_ & _ & -> & _)|[(_ & _ & P & _)|(_ & u1 & u2 & l & P & D & ->)]].
  - destruct t1; discriminate.
  - exfalso. apply J. apply prepare_within in P. rewrite Forall_forall in P. apply P. subst t. apply elem_of_list_In.
    rewrite in_app_iff. right. now left.
  - destruct (prepare_built _ _ _ _ _ _ P) as (tdir & Et & B). exists tdir. split; [exact Et|].
    apply prepare_within in P. rewrite Forall_forall in P.
    assert (Pre : exists v, t1 = u1 ++ v).
    { clear - T J P. revert t1 T. induction u1 as [|x u1 IH]; intros t1 T; [now exists t1|].
      destruct t1 as [|y t1]; cbn [app] in T.
      - injection T as -> _. exfalso. apply J. apply P. left.
      - injection T as -> T. destruct (IH (fun z Z => P z (elem_of_list_further _ _ _ Z)) t1 T) as [v ->]. now exists v. }
    destruct Pre as [v ->]. rewrite in_app_iff. now left.
Qed.
Print Assumptions C42_built_first.

(** The directory shown is that of the first given of --coverage, --display, --replay. *)
Theorem C42_directory_shown :
  forall (w : world) (o : opts) (m m' : fs) (t : list act) (r : rres unit) x tg dir es,
    run w o m = (m', t, r) -> In (ATarget x tg dir es) t ->
    exists b rct raw,
      (o_coverage o = Some b \/ (o_coverage o = None /\ o_display o = Some b) \/
       (o_coverage o = None /\ o_display o = None /\ o_replay o = Some b)) /\
      Entries.flags_and_dir (q_td (w_cargo w)) (w_id w) b (ex_name x) tg = Ret (rct, raw, dir).
Proof.
  intros w o m m' t r x tg dir es E I. apply run_eq in E as (r0 & E & _).
  pose proof (adjust_same o) as (A1 & A2 & A3 & _).
  assert (NP : forall t, Forall prep t -> ~ In (ATarget x tg dir es) t).
  { intros u F K. rewrite Forall_forall in F. apply elem_of_list_In in K. apply F in K. discriminate. }
  assert (NJ : forall t j, Forall (of_job j) t -> j <> JShow -> ~ In (ATarget x tg dir es) t).
  { intros u j F N K. rewrite Forall_forall in F. apply elem_of_list_In in K. apply F in K. unfold of_job in K. cbn in K. congruence. }
  apply run_shape in E as [(_ & _ & -> & _)|[(_ & _ & P & _)|(_ & t1 & t2 & l & P & D & ->)]].
  - destruct I.
  - apply prepare_within in P. exfalso. exact (NP _ P I).
  - apply in_app_iff in I as [I|I]; [apply prepare_within in P; exfalso; exact (NP _ P I)|].
    apply dispatch_cases in D as [(L & _ & -> & _)|[(_ & _ & _ & -> & _)|[(L & N & C & D)|[(L & N & C1 & C & D)|[(L & N & C1 & C2 & S0 & D)|(L & N & C1 & C2 & S0 & D)]]]]].
    + destruct I as [K|[]]. discriminate.
    + destruct I.
    + apply clear_within in D. exfalso. refine (NJ _ _ D _ I). discriminate.
    + apply clear_within in D. exfalso. refine (NJ _ _ D _ I). discriminate.
    + apply show_dirs in D. rewrite Forall_forall in D. apply elem_of_list_In in I. apply D in I.
      destruct I as (b & rct & raw & C & F). exists b, rct, raw. split; [|exact F].
      unfold chosen_object in C. rewrite A1, A2, A3 in C. destruct (o_coverage o), (o_display o); auto.
    + assert (W : within (of_job JFuzz) (pbind (plift (flatten_executable_targets (E := executable) (o_exact (adjust o)) (o_ztarget (adjust o)) l)) (p_fuzz w (adjust o))))
        by (apply within_bind; [apply within_lift|intros fl; apply fuzz_within]).
      apply W in D. exfalso. refine (NJ _ _ D _ I). discriminate.
Qed.
Print Assumptions C42_directory_shown.

(** Clearing is the function of C46-C49. *)
Theorem C42_clear_is_consolidate_or_reset :
  forall (w : world) (o : opts) (m m' : fs) (t : list act) (r : rres unit),
    run w o m = (m', t, r) -> In AConsolidate t \/ In AReset t ->
    exists l m1 h x,
      Consolidate.consolidate_or_reset (w_io w) (q_td (w_cargo w)) (w_id w) (adjust o) (by_name l) m = Some (m1, h, x) /\
      m' = m1 /\ (r = ROk tt <-> x = Ret tt).
Proof.
  intros w o m m' t r E I. apply run_eq in E as (r0 & E & R).
  assert (NP : forall t, Forall prep t -> ~ (In AConsolidate t \/ In AReset t)).
  { intros u F [K|K]; rewrite Forall_forall in F; apply elem_of_list_In in K; apply F in K; discriminate. }
  assert (NJ : forall t j, Forall (of_job j) t -> j <> JClear -> ~ (In AConsolidate t \/ In AReset t)).
  { intros u j F N [K|K]; rewrite Forall_forall in F; apply elem_of_list_In in K; apply F in K; unfold of_job in K; cbn in K; congruence. }
  assert (PC : forall b l m2 t2 r2, p_clear w (adjust o) b l m = (m2, t2, r2) ->
     exists m1 h x, Consolidate.seq (if b then Consolidate.consolidate (w_io w) (q_td (w_cargo w)) (w_id w) (adjust o) (by_name l) m else (m, [], Ret tt))
                      (Consolidate.reset (w_io w) (q_td (w_cargo w)) (w_id w) (adjust o) (by_name l)) = (m1, h, x) /\
       m2 = m1 /\ r2 = match x with Ret _ => ROk tt | Err e => RErr e | Panic => RPanic end).
  { intros b l m2 t2 r2 D. unfold p_clear in D. destruct b.
    - unfold pbind, p_io in D. destruct (Consolidate.consolidate _ _ _ _ _ m) as [[m3 h3] [u|e|]]; cbn [Consolidate.seq].
      + destruct (Consolidate.reset _ _ _ _ _ m3) as [[m4 h4] [v|e|]]; injection D as <- <- <-; eauto 10.
      + injection D as <- <- <-; eauto 10.
      + injection D as <- <- <-; eauto 10.
    - unfold pbind, pret, p_io in D. cbn [Consolidate.seq].
      destruct (Consolidate.reset _ _ _ _ _ m) as [[m4 h4] [v|e|]]; injection D as <- <- <-; eauto 10. }
  apply run_shape in E as [(_ & _ & -> & _)|[(_ & _ & P & _)|(_ & t1 & t2 & l & P & D & ->)]].
  - destruct I as [[]|[]].
  - apply prepare_within in P. exfalso. exact (NP _ P I).
  - assert (I2 : In AConsolidate t2 \/ In AReset t2).
    { rewrite !in_app_iff in I. apply prepare_within in P. specialize (NP _ P). tauto. }
    assert (FIN : forall x : outcome unit, r0 = match x with Ret _ => ROk tt | Err e => RErr e | Panic => RPanic end -> (r = ROk tt <-> x = Ret tt)).
    { intros x Hr. subst r0. rewrite R. destruct x as [[]|e|]; [tauto| |split; discriminate].
      split; [|discriminate]. destruct (o_exit_code o); discriminate. }
    exists l. unfold Consolidate.consolidate_or_reset.
    apply dispatch_cases in D as [(L & _ & -> & _)|[(_ & _ & _ & -> & _)|[(L & N & C & D)|[(L & N & C1 & C & D)|[(L & N & C1 & C2 & S0 & D)|(L & N & C1 & C2 & S0 & D)]]]]].
    + destruct I2 as [[K|[]]|[K|[]]]; discriminate.
    + destruct I2 as [[]|[]].
    + rewrite C. destruct (PC _ _ _ _ _ D) as (m1 & h & x & Q & -> & Hr). exists m1, h, x. rewrite <- Q. auto.
    + rewrite C1, C. destruct (PC _ _ _ _ _ D) as (m1 & h & x & Q & -> & Hr). exists m1, h, x. rewrite <- Q. auto.
    + apply show_within in D. exfalso. refine (NJ _ _ D _ I2). discriminate.
    + assert (W : within (of_job JFuzz) (pbind (plift (flatten_executable_targets (E := executable) (o_exact (adjust o)) (o_ztarget (adjust o)) l)) (p_fuzz w (adjust o))))
        by (apply within_bind; [apply within_lift|intros fl; apply fuzz_within]).
      apply W in D. exfalso. refine (NJ _ _ D _ I2). discriminate.
Qed.
Print Assumptions C42_clear_is_consolidate_or_reset.

(** ** C43 *)

Theorem C43_never_both :
  forall (o : opts) (td : path),
    ~ (o_coverage o <> None /\ include_fuzzing_instrumentation o = true) /\
    exists d, own_target_directory td o = Ret d.
Proof.
  intros o td. split.
  - intros [C F]. pose proof (never_both o) as N. unfold include_coverage_instrumentation in N. rewrite F in N.
    destruct (o_coverage o); [discriminate|contradiction].
  - eexists. apply own_target_directory_eq.
Qed.
Print Assumptions C43_never_both.

(** Without --list and --coverage, the program is built with fuzzing instrumentation
    exactly if every object given to --display and --replay is an instrumented one. *)
Theorem C43_instrumented_exact :
  forall (o : opts),
    o_list o = false -> o_coverage o = None -> valid o ->
    (include_fuzzing_instrumentation o = true <->
     (forall b, o_display o = Some b -> instrumented b) /\ (forall b, o_replay o = Some b -> instrumented b)).
Proof.
  intros o L C [_ V]. unfold include_fuzzing_instrumentation. rewrite L, C. cbn [is_some orb]. split.
  - intros H. apply negb_true_iff, orb_false_iff in H as [D R]. split; intros b E.
    + rewrite E in D. unfold instrumented. destruct b; try discriminate; cbn; auto 10.
    + rewrite E in R. specialize (V b E). unfold instrumented. destruct b; try discriminate; cbn; auto; destruct V; contradiction.
  - intros [D R]. apply negb_true_iff, orb_false_iff. split.
    + destruct (o_display o) as [b|]; [|reflexivity]. specialize (D b eq_refl). unfold instrumented in D. cbn [In] in D.
      destruct b; try reflexivity; exfalso; intuition congruence.
    + destruct (o_replay o) as [b|]; [|reflexivity]. specialize (R b eq_refl). unfold instrumented in R. cbn [In] in R.
      destruct b; try reflexivity; exfalso; intuition congruence.
Qed.
Print Assumptions C43_instrumented_exact.

(** Whenever a fuzzer is started, the program was built by cargo-afl into the
    directory for instrumented programs. *)
Theorem C43_fuzzing_uses_instrumented_build :
  forall (w : world) (o : opts) (m m' : fs) (t t1 t2 : list act) (r : rres unit) a,
    run w o m = (m', t, r) -> t = t1 ++ a :: t2 -> act_job a = Some JFuzz ->
    exists rest, In (ABuild (lit "afl" :: lit "test" :: lit "--no-run" :: rest) false) t1 /\
      exists r1 r2, rest = r1 ++ lit "--target-dir" :: lossy (path_text (q_td (w_cargo w) ++ [lit "afl"])) :: r2.
Proof.
  intros w o m m' t t1 t2 r a E T J.
  destruct (C42_built_first w o m m' t t1 t2 r a E T ltac:(congruence)) as (tdir & Et & B).
  assert (A : asks o JFuzz).
  { destruct (C42_one_kind w o m m' t r E) as [H _]. apply (H a); [subst t; rewrite in_app_iff; right; now left|exact J]. }
  apply adjust_asks in A. destruct A as (L & _ & _ & S0).
  assert (K : o_coverage (adjust o) = None /\ o_display (adjust o) = None /\ o_replay (adjust o) = None).
  { unfold asks_show in S0. destruct (o_coverage (adjust o)), (o_display (adjust o)), (o_replay (adjust o)); try (exfalso; apply S0; auto; fail);
      try (exfalso; apply S0; left; discriminate); try (exfalso; apply S0; right; left; discriminate); try (exfalso; apply S0; right; right; discriminate); auto. }
  destruct K as (K1 & K2 & K3).
  assert (F : include_fuzzing_instrumentation (adjust o) = true).
  { unfold include_fuzzing_instrumentation. rewrite L, K1, K2, K3. reflexivity. }
  assert (Q : silence_stderr (adjust o) = false) by (unfold silence_stderr; rewrite K1, K2, K3; reflexivity).
  rewrite own_target_directory_eq, K1, F in Et. cbn [is_some app] in Et. injection Et as <-.
  rewrite Q in B. unfold build_args, include_coverage_instrumentation in B. rewrite F, K1 in B. cbn [is_some orb app] in B.
  eexists. split; [exact B|].
  eexists ((if o_no_default_features (adjust o) then [lit "--no-default-features"] else [])
           ++ flat_map (fun f => [lit "--features"; f]) (o_features (adjust o))
           ++ (if o_release (adjust o) then [lit "--release"] else [])), _.
  rewrite <- !app_assoc. reflexivity.
Qed.
Print Assumptions C43_fuzzing_uses_instrumented_build.

(** ** C44 *)

(** No phase but the parallel loop ends the process, and that only with 1. *)
Lemma inner_exit w o m m' t n : run_without_exit_code w o m = (m', t, RExit n) ->
  n = 1 /\ exists os k, In (AParallel os) t /\ Sched.run (w_strip w) k (Sched.s_init k) (w_session w) = (Sched.Exit1, os) /\
             Sched.k_exit_code k = o_exit_code o.
Proof.
  intros E. apply run_shape in E as [(_ & _ & _ & e & K)|[(_ & _ & P & _)|(_ & t1 & t2 & l & P & D & ->)]]; [congruence|exfalso; eapply prepare_no_exit; eauto|].
  apply dispatch_cases in D as [(_ & _ & _ & K)|[(_ & _ & _ & _ & K)|[(L & N & C & D)|[(L & N & C1 & C & D)|[(L & N & C1 & C2 & S0 & D)|(L & N & C1 & C2 & S0 & D)]]]]]; try congruence.
  - exfalso. eapply clear_no_exit; eauto.
  - exfalso. eapply clear_no_exit; eauto.
  - exfalso. eapply show_no_exit; eauto.
  - apply pbind_inv in D as [(m1 & t3 & t4 & fl & X & D & ->)|(r1 & X & _ & _ & _ & _ & Hn & _)].
    + apply fuzz_cases in D as [(att & ns & os & k & res & -> & _ & R & Hr)|[(att & ns & args & _ & _ & K)|(_ & _ & K)]].
      * destruct res as [s|[u|e|]|]; try discriminate Hr. injection Hr as ->. split; [reflexivity|].
        eexists os, _. split; [|split; [exact R|reflexivity]]. rewrite !in_app_iff. right; right; right. rewrite in_app_iff. right. now left.
      * destruct (w_foreground w); discriminate.
      * exfalso. now apply (K n).
    + exfalso. rewrite (proj1 (Hn n) eq_refl) in X. eapply no_exit_lift; eauto.
Qed.

(** The result of a run in which the parallel loop was entered. *)
Lemma inner_parallel w o m m' t r os : run_without_exit_code w o m = (m', t, r) -> In (AParallel os) t ->
  exists k res, Sched.run (w_strip w) k (Sched.s_init k) (w_session w) = (res, os) /\
    Sched.k_exit_code k = o_exit_code o /\ r = conv res.
Proof.
  intros E I.
  assert (NP : forall t, Forall prep t -> ~ In (AParallel os) t).
  { intros u F K. rewrite Forall_forall in F. apply elem_of_list_In in K. apply F in K. discriminate. }
  assert (NJ : forall t j, Forall (of_job j) t -> j <> JFuzz -> ~ In (AParallel os) t).
  { intros u j F N K. rewrite Forall_forall in F. apply elem_of_list_In in K. apply F in K. unfold of_job in K. cbn in K. congruence. }
  apply run_shape in E as [(_ & _ & -> & _)|[(_ & _ & P & _)|(_ & t1 & t2 & l & P & D & ->)]].
  - destruct I.
  - apply prepare_within in P. exfalso. exact (NP _ P I).
  - apply in_app_iff in I as [I|I]; [apply prepare_within in P; exfalso; exact (NP _ P I)|].
    apply dispatch_cases in D as [(L & _ & -> & _)|[(_ & _ & _ & -> & _)|[(L & N & C & D)|[(L & N & C1 & C & D)|[(L & N & C1 & C2 & S0 & D)|(L & N & C1 & C2 & S0 & D)]]]]].
    + destruct I as [K|[]]. discriminate.
    + destruct I.
    + apply clear_within in D. exfalso. refine (NJ _ _ D _ I). discriminate.
    + apply clear_within in D. exfalso. refine (NJ _ _ D _ I). discriminate.
    + apply show_within in D. exfalso. refine (NJ _ _ D _ I). discriminate.
    + apply pbind_inv in D as [(m1 & t3 & t4 & fl & X & D & ->)|(r1 & X & _)].
      * unfold plift in X. destruct (flatten_executable_targets _ _ _); try congruence. injection X as <- <- <-. cbn [app] in I.
        apply fuzz_cases in D as [(att & ns & os' & k & res & -> & _ & R & Hr)|[(att & ns & args & -> & _)|([->|(att & ns & [->|(n & ->)])] & _)]].
        -- destruct I as [K|I]; [discriminate|]. apply in_app_iff in I as [I|[K|[]]]; [now apply cpu_note_in in I as (? & ?)|]. injection K as ->. eexists _, res. split; [exact R|]. split; [reflexivity|exact Hr].
        -- destruct I as [K|[K|[]]]; discriminate.
        -- destruct I.
        -- destruct I as [K|[]]; discriminate.
        -- destruct I as [K|I]; [discriminate|]. now apply cpu_note_in in I as (? & ?).
      * unfold plift in X. injection X as _ <- _. destruct I.
Qed.

(** With --exit-code: status 2 exactly if the work returned an error; status 1
    exactly if some fuzzer of the session stopped programmatically without having
    reached its time limit; status 0 exactly if the work succeeded; a panic is 101. *)
Theorem C44_exit_codes :
  forall (w : world) (o : opts) (m m' : fs) (t : list act) (r : rres unit),
    run w o m = (m', t, r) -> o_exit_code o = true ->
    (status r = Some 2 <-> exists e, run_without_exit_code w (adjust o) m = (m', t, RErr e)) /\
    (status r = Some 1 <->
       exists os, In (AParallel os) t /\
         exists t1 i t2, os = t1 ++ Sched.OEnd i true false :: t2 /\
           ~ exists l, In l (Sched.cur_lines t1 i) /\ occurs Lines.time_limit_marker l) /\
    (status r = Some 0 <-> run_without_exit_code w (adjust o) m = (m', t, ROk tt)) /\
    (status r = Some 101 <-> run_without_exit_code w (adjust o) m = (m', t, RPanic)) /\
    (status r = None \/ exists n, status r = Some n /\ In n [0; 1; 2; 101]).
Proof.
  intros w o m m' t r E X. apply run_eq in E as (r0 & E & R). rewrite X in R.
  pose proof (adjust_same o) as (_ & _ & _ & _ & _ & _ & _ & _ & _ & AX & _). rewrite X in AX.
  assert (P1 : r0 = RExit 1 <-> exists os, In (AParallel os) t /\
         exists t1 i t2, os = t1 ++ Sched.OEnd i true false :: t2 /\
           ~ exists l, In l (Sched.cur_lines t1 i) /\ occurs Lines.time_limit_marker l).
  { split.
    - intros ->. destruct (inner_exit _ _ _ _ _ _ E) as (_ & os & k & I & S0 & _). exists os. split; [exact I|].
      destruct (PropsSched.C44_exit_code_1_exact _ _ _ _ _ S0) as [[H _] _]. destruct (H eq_refl) as (t1 & i & t2 & Q & _ & N). eauto 10.
    - intros (os & I & t1 & i & t2 & Q & N). destruct (inner_parallel _ _ _ _ _ _ _ E I) as (k & res & S0 & KX & ->).
      destruct (PropsSched.C44_exit_code_1_exact _ _ _ _ _ S0) as [[_ H] _]. rewrite H; [reflexivity|].
      exists t1, i, t2. split; [exact Q|]. split; [congruence|exact N]. }
  assert (PE : forall n, r0 = RExit n -> n = 1).
  { intros n ->. now destruct (inner_exit _ _ _ _ _ _ E). }
  rewrite <- P1. rewrite E. subst r. destruct r0 as [[]|e| |n|]; cbn [status].
  - repeat split; try congruence; try (intros H0; congruence); try (intros [? ?]; congruence). right. exists 0. split; [reflexivity|now left].
  - repeat split; try congruence; try (intros H0; congruence); try (intros [? ?]; congruence); [intros _; now exists e|]. right. exists 2. cbn; auto 10.
  - repeat split; try congruence; try (intros H0; congruence); try (intros [? ?]; congruence). right. exists 101. cbn; auto 10.
  - pose proof (PE n eq_refl) as ->. repeat split; try congruence; try (intros H0; congruence); try (intros [? ?]; congruence). right. exists 1. cbn; auto 10.
  - repeat split; try congruence; try (intros H0; congruence); try (intros [? ?]; congruence). now left.
Qed.
Print Assumptions C44_exit_codes.

(** Without --exit-code errors are returned to the caller (so main exits with 1),
    and nothing exits on its own. *)
Theorem C44_without_exit_code :
  forall (w : world) (o : opts) (m m' : fs) (t : list act) (r : rres unit),
    run w o m = (m', t, r) -> o_exit_code o = false ->
    run_without_exit_code w o m = (m', t, r) /\ (forall n, r <> RExit n) /\
    (status r = Some 1 <-> exists e, r = RErr e) /\ status r <> Some 2.
Proof.
  intros w o m m' t r E X. apply run_eq in E as (r0 & E & R). rewrite X in R.
  assert (A : adjust o = o) by (unfold adjust; now rewrite X). rewrite A in E.
  assert (R' : r = r0) by (now destruct r0). rewrite R' in *. clear r R R'.
  assert (N : forall n, r0 <> RExit n).
  { intros n ->. destruct (inner_exit _ _ _ _ _ _ E) as (_ & os & k & _ & S0 & KX).
    destruct (PropsSched.C44_exit_code_1_exact _ _ _ _ _ S0) as [[H _] _]. destruct (H eq_refl) as (t1 & i & t2 & _ & K & _). congruence. }
  split; [exact E|]. split; [exact N|]. destruct r0 as [u|e| |n|]; cbn [status].
  - repeat split; try congruence; try (intros H0; congruence). intros [? ?]; congruence.
  - repeat split; try congruence; try (intros H0; congruence). intros _. now exists e.
  - repeat split; try congruence; try (intros H0; congruence). intros [? ?]; congruence.
  - exfalso. now apply (N n).
  - repeat split; try congruence; try (intros H0; congruence). intros [? ?]; congruence.
Qed.
Print Assumptions C44_without_exit_code.

(** --exit-code implies --no-ui. *)
Theorem C44_no_ui : forall o, o_no_ui (adjust o) = o_no_ui o || o_exit_code o.
Proof. intros o. apply adjust_same. Qed.
Print Assumptions C44_no_ui.

(** An example world: one executable with two targets and their corpora. *)
Definition ex_show (v : version) : str := Decimal.dec (v_major v) ++ lit "." ++ Decimal.dec (v_minor v) ++ lit "." ++ Decimal.dec (v_patch v).
Definition ex_self : version := mkversion 7 2 0 [].
Definition ex_afl_v : version := mkversion 0 15 0 [].
Definition ex_meta : metadata := {|
  md_packages := [{| p_id := lit "tf"; p_name := lit "test-fuzz"; p_version := ex_self |};
                  {| p_id := lit "afl"; p_name := lit "afl"; p_version := ex_afl_v |}];
  md_resolve := Some [{| n_id := lit "k"; n_deps := [lit "tf"] |}; {| n_id := lit "tf"; n_deps := [lit "afl"] |}] |}.
Definition ex_world (afl : option bytes) (session : list Sched.input) : world := {|
  w_cargo := {| q_md := fun _ _ _ => Some {| mt_dir := [lit "t"]; mt_md := ex_meta |}; q_td := [lit "t"]; q_here := true; q_env := None |};
  w_parse := fun s => if str_eqb s (lit "0.15.0") then Some ex_afl_v else None;
  w_afl := afl; w_terminal := false;
  w_build := fun _ => Some (true, [OtherMessage; CompilerMessage (lit "warning"); Artifact (lit "k") (lit "k") true (Some (lit "/t/k-1"))]);
  w_listing := fun _ => lit "f_fuzz__::entry: test" ++ [LF] ++ lit "other: test" ++ [LF] ++ lit "g_fuzz__::entry: test" ++ [LF];
  w_self := ex_self; w_show := ex_show; w_id := None; w_io := Consolidate.real_io; w_width := None; w_clean := true;
  w_eio := fun _ _ => {| Entries.e_exists := true; Entries.e_list := Some []; Entries.e_open := fun _ => true;
                         Entries.e_raw := fun _ => None; Entries.e_proc := fun _ => Entries.PFail [] |};
  w_lcov := Some false; w_report := fun _ => true;
  w_gen := fun m x t => ((create_dir_all m (corpus_dir [lit "t"] None (x, t))).1, true);
  w_cpus := 4; w_checks := true; w_foreground := true; w_strip := fun b => b; w_session := session |}.
Definition ex_afl_ok : option bytes := Some (lit "cargo-afl 0.15.0" ++ [LF]).
Definition ex_o (display replay : option object) (exit_code : bool) : opts :=
  {| o_backtrace := false; o_consolidate := false; o_consolidate_all := false; o_coverage := None;
     o_cpus := None; o_display := display; o_exact := false; o_exit_code := exit_code; o_list := false;
     o_max_total_time := None; o_no_run := false; o_no_ui := true; o_persistent := false;
     o_pretty := false; o_replay := replay; o_reset := false; o_reset_all := false; o_resume := false;
     o_run_until_crash := false; o_slice := 1200%N; o_timeout := None;
     o_features := []; o_manifest_path := None; o_no_default_features := false; o_package := None;
     o_release := false; o_test := None; o_verbose := false; o_ztarget := None; o_zzargs := [] |}.

(** Without cargo-afl, --exit-code does not give 2: the process panics. *)
Theorem C44_missing_cargo_afl_refuted :
  exists (w : world) (o : opts) (m m' : fs) (t : list act) (r : rres unit),
    o_exit_code o = true /\ run w o m = (m', t, r) /\ status r = Some 101.
Proof.
  exists (ex_world None []), (ex_o None None true), ∅. do 3 eexists.
  split; [reflexivity|]. split; [vm_compute; reflexivity|reflexivity].
Qed.
Print Assumptions C44_missing_cargo_afl_refuted.

(** Asked to display one object and replay another, the tool looks at the first only. *)
Theorem C42_replay_object_ignored_refuted :
  exists (w : world) (o : opts) (m m' : fs) (t : list act),
    o_display o = Some Corpus_ /\ o_replay o = Some Crashes /\ run w o m = (m', t, ROk tt) /\
    (exists x tg dir es, In (ATarget x tg dir es) t) /\
    forall x tg dir es, In (ATarget x tg dir es) t -> output_subdir (q_td (w_cargo w)) (w_id w) (lit "crashes") (ex_name x) tg <> Ret dir.
Proof.
  exists (ex_world ex_afl_ok []), (ex_o (Some Corpus_) (Some Crashes) false), ∅. do 2 eexists.
  split; [reflexivity|]. split; [reflexivity|]. split; [vm_compute; reflexivity|]. split.
  - do 4 eexists. do 4 right. left. reflexivity.
  - intros x tg dir es I. repeat (destruct I as [I|I]; [try discriminate I; injection I as <- <- <- <-; vm_compute; discriminate|]). destruct I.
Qed.
Print Assumptions C42_replay_object_ignored_refuted.

Definition run_kinds (w : world) (o : opts) (m : fs) : list (option job) * option nat :=
  match run w o m with (_, t, r) => (map act_job t, status r) end.

Example C42_example :
  run_kinds (ex_world ex_afl_ok []) (ex_o (Some Corpus_) None false) ∅
    = ([None; None; None; Some JShow; Some JShow; Some JShow; Some JShow], Some 0) /\
  run_kinds (ex_world ex_afl_ok []) (ex_o None (Some GenericArgs_) true) ∅ = ([], Some 2).
Proof. vm_compute. auto. Qed.

Example C43_example :
  include_fuzzing_instrumentation (ex_o (Some CorpusInstrumented) None false) = true /\
  include_fuzzing_instrumentation (ex_o (Some CorpusInstrumented) (Some Hangs) false) = false /\
  include_fuzzing_instrumentation (ex_o None None false) = true.
Proof. vm_compute. auto. Qed.

(** Two targets; the second one's fuzzer finds something before any time limit. *)
Example C44_example :
  run_kinds (ex_world ex_afl_ok (map PropsSched.ex_input [[]; []; [PropsSched.ex_end 1]; []])) (ex_o None None true) ∅
    = ([None; None; None; Some JFuzz; Some JFuzz], Some 1) /\
  run_kinds (ex_world ex_afl_ok (map PropsSched.ex_input [[]; []])) (ex_o None None false) ∅
    = ([None; None; None; Some JFuzz; Some JFuzz], None).
Proof. vm_compute. auto. Qed.
