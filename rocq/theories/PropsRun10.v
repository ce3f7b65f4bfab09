(** C114: what fuzzers are given to start from. *)
From Coq Require Import String List Ascii Bool Arith NArith Lia.
From stdpp Require Import gmap strings.
From Verif Require Import Base Utf8 Lossy Decimal Env Dirs Opts Targets Semver Sha1 Fs Write Meta FuzzCmd Build AutoGen Run RunFacts PropsRun PropsRun2 PropsRun3 History PropsHistory.
From Verif Require Consolidate Entries Lines Sched Ui PropsSched PropsFuzzCmd.
Import ListNotations.
Local Open Scope nat_scope.

(** A fuzzer runs in the foreground, or several do under the control of the parallel loop. *)
Definition starts_fuzzing (a : act) : Prop :=
  match a with AForeground _ => True | AParallel _ => True | _ => False end.

(** Generating a corpus removes nothing. *)
Definition removes_nothing (g : generator) : Prop :=
  forall m x t p, exists_ m p = true -> exists_ (fst (g m x t)) p = true.

Lemma autogen_all td id g : removes_nothing g -> forall l m m' att notes errs,
  autogen_loop td id g m l = (m', att, notes, errs) ->
  (forall p, exists_ m p = true -> exists_ m' p = true) /\
  (errs = [] -> forall xt, In xt l -> exists_ m' (corpus_dir td id xt) = true).
Proof.
  intros W l. induction l as [|[x t] l IH]; intros m m' att notes errs E.
  - cbn in E. injection E as <- _ _ _. split; [auto|intros _ xt []].
  - rewrite autogen_cons in E. cbv zeta in E. destruct (exists_ m (corpus_dir td id (x, t))) eqn:X.
    + destruct (IH _ _ _ _ _ E) as (M & A). split; [exact M|]. intros Z xt [<-|I]; [now apply M|now apply A].
    + destruct (g m x t) as [m1 ok] eqn:G. destruct (autogen_loop td id g m1 l) as [[[m2 att'] notes'] errs'] eqn:L.
      destruct (IH _ _ _ _ _ L) as (M & A). pose proof (W m x t) as W1. rewrite G in W1. cbn [fst] in W1.
      assert (m' = m2) as -> by now inversion E. split; [intros p Q; apply M, W1, Q|].
      intros Z. destruct (ok && exists_ m1 (corpus_dir td id (x, t))) eqn:Y; [|exfalso; now inversion E; subst].
      assert (errs' = []) as Z' by (inversion E; now subst). apply andb_prop in Y as [_ Y].
      intros xt [<-|I]; [now apply M|now apply A].
Qed.

Lemma fuzz_generated w o fl m m' t r a : p_fuzz w o fl m = (m', t, r) -> In a t -> starts_fuzzing a ->
  exists att ns, auto_generate_corpora (q_td (w_cargo w)) (w_id w) (w_gen w) m (map (fun xt => (as_exe (fst xt), snd xt)) fl) = (m', att, ns, Ret tt).
Proof.
  intros E I F. pose proof (fuzz_exact _ _ _ _ _ _ _ E) as (G & _). unfold p_fuzz in E.
  destruct (is_some (o_coverage o)); [injection E as _ <- _; destruct I|].
  unfold pbind at 1 in E. destruct (auto_generate_corpora _ _ _ _ _) as [[[m1 att] ns] y] eqn:AG.
  assert (K : In (AGenerate att ns) t).
  { destruct y as [u|e|]; [|injection E as _ <- _; now left|injection E as _ <- _; now left].
    match type of E with match ?q with _ => _ end = _ => destruct q as [[m2 t2] r2] end.
    assert (t = [AGenerate att ns] ++ t2) as -> by (now inversion E). now left. }
  apply G in K as (y' & K). assert (m1 = m') as -> by (now inversion K).
  destruct y as [[]|e|]; [eauto|assert (t = [AGenerate att ns]) as -> by (now inversion E); destruct I as [<-|[]]; destruct F|assert (t = [AGenerate att ns]) as -> by (now inversion E); destruct I as [<-|[]]; destruct F].
Qed.

Lemma run_generated w o m m' t r a : run w o m = (m', t, r) -> In a t -> starts_fuzzing a ->
  exists fl att ns, (forall x tg, In (x, tg) fl <-> reached w o t x tg) /\
    auto_generate_corpora (q_td (w_cargo w)) (w_id w) (w_gen w) m (map (fun xt => (as_exe (fst xt), snd xt)) fl) = (m', att, ns, Ret tt).
Proof.
  intros E I S0. assert (J : act_job a = Some JFuzz) by (destruct a; try destruct S0; reflexivity).
  apply run_eq in E as (r0 & E & _).
  apply run_shape in E as [(_ & _ & -> & _)|[(_ & _ & P & _)|(_ & t1 & t2 & l & P & D & ->)]].
  - destruct I.
  - apply prepare_within in P. exfalso. exact (prep_no_job P J I).
  - pose proof (prepare_within _ _ _ _ _ _ P) as PW. apply in_app_iff in I as [I|I]; [exfalso; exact (prep_no_job PW J I)|].
    apply dispatch_cases in D as [(L & _ & -> & _)|[(_ & _ & _ & -> & _)|[(L & N & C & D)|[(L & N & C1 & C & D)|[(L & N & C1 & C2 & S1 & D)|(L & N & C1 & C2 & S1 & D)]]]]].
    + destruct I as [<-|[]]. discriminate.
    + destruct I.
    + apply clear_within in D. exfalso. refine (job_no_prep D _ I). congruence.
    + apply clear_within in D. exfalso. refine (job_no_prep D _ I). congruence.
    + apply show_within in D. exfalso. refine (job_no_prep D _ I). congruence.
    + assert (W : within (of_job JFuzz) (pbind (plift (flatten_executable_targets (E := executable) (o_exact (adjust o)) (o_ztarget (adjust o)) l)) (p_fuzz w (adjust o))))
        by (apply within_bind; [apply within_lift|intros fl; apply fuzz_within]).
      pose proof (W _ _ _ _ D) as FJ.
      apply pbind_inv in D as [(m1 & u1 & u2 & fl & X & D & ->)|(r1 & X & _)].
      2:{ injection X as _ <- _. destruct I. }
      unfold plift in X. destruct (flatten_executable_targets _ _ _) as [fl'|e|] eqn:FL; try congruence. injection X as <- <- ->.
      cbn [app] in *. destruct (fuzz_generated _ _ _ _ _ _ _ _ D I S0) as (att & ns & G). exists fl, att, ns.
      split; [|exact G].
      intros x tg. rewrite (flatten_in _ _ _ _ x tg FL). eapply reached_prepare; eauto.
Qed.

(** ** C114 *)

(** No fuzzer is started before every target reached has a corpus. *)
Theorem C114_corpora_exist :
  forall (w : world) (o : opts) (m m' : fs) (t : list act) (r : rres unit) (a : act),
    removes_nothing (w_gen w) ->
    run w o m = (m', t, r) -> In a t -> starts_fuzzing a ->
    (forall p, exists_ m p = true -> exists_ m' p = true) /\
    (forall x tg, reached w o t x tg ->
       exists d, dir_from_target (q_td (w_cargo w)) (w_id w) Corpus (ex_name x) tg = Ret d /\ exists_ m' d = true).
Proof.
  intros w o m m' t r a W E I S0. destruct (run_generated _ _ _ _ _ _ _ E I S0) as (fl & att & ns & F & G).
  unfold auto_generate_corpora in G. destruct (autogen_loop _ _ _ _ _) as [[[m1 att1] ns1] errs] eqn:L.
  assert (m1 = m' /\ errs = []) as (-> & ->) by (destruct errs; now inversion G).
  destruct (autogen_all _ _ _ W _ _ _ _ _ _ L) as (M & A). split; [exact M|]. intros x tg R. apply F in R.
  exists (corpus_dir (q_td (w_cargo w)) (w_id w) (as_exe x, tg)). split; [apply dir_from_target_eq|].
  apply A; [reflexivity|]. apply in_map_iff. exists (x, tg). auto.
Qed.
Print Assumptions C114_corpora_exist.

Lemma autos_remove_nothing td id autos g : records_autos td id autos g -> removes_nothing g.
Proof. intros G m x t p X. destruct (G m x t) as (n & ->). now apply exists_record. Qed.

(** The command line [args] gives the fuzzer a directory that exists and holds all that was
    recorded for the target in the file system [m]. *)
Definition starts_from_corpus (td : path) (id : option str) (m m' : fs) (krate target : str) (args : list str) : Prop :=
  exists d rest,
    dir_from_target td id Corpus krate target = Ret d /\
    args = lit "-c-" :: lit "-i" :: lossy (path_text d) :: rest /\
    exists_ m' d = true /\
    (forall b, unique b m' -> m !! (d ++ [corpus_name b]) = Some (File b) -> m' !! (d ++ [corpus_name b]) = Some (File b)).

Lemma starts_from td autos w o m m' t r a x tg limit args :
  possible td autos m (Invoked w o) -> run w o m = (m', t, r) -> In a t -> starts_fuzzing a -> reached w o t x tg ->
  fuzzer_for w o x tg false limit args -> starts_from_corpus td (w_id w) m m' (ex_name x) tg args.
Proof.
  intros P E I S0 R (d & out & lim & hang & D & _ & _ & _ & ->). pose proof P as (TD & _ & _ & G).
  apply autos_remove_nothing in G. destruct (C114_corpora_exist _ _ _ _ _ _ _ G E I S0) as (_ & X).
  destruct (X _ _ R) as (d' & D' & Xd). rewrite D in D'. assert (d' = d) as -> by (now inversion D'). rewrite TD in D.
  exists d. eexists. split; [exact D|]. split; [reflexivity|]. split; [exact Xd|]. intros b U L.
  assert (H : entry td (w_id w) (ex_name x) tg b (happen m (Invoked w o))).
  { eapply entry_step; [exists d; split; [exact D|exact L]|exact P|]. cbn [happen]. now rewrite E. }
  cbn [happen] in H. rewrite E in H. destruct H as (d'' & D'' & H). rewrite D in D''. inversion D''. now subst.
Qed.

(** The fuzzer in the foreground starts, unless resumed, from the corpus. *)
Theorem C114_foreground :
  forall (td : path) (autos : exe -> str -> list bytes) (w : world) (o : opts) (m m' : fs) (t : list act) (r : rres unit) (args : list str),
    possible td autos m (Invoked w o) ->
    run w o m = (m', t, r) -> In (AForeground args) t ->
    (forall s, o_timeout o = Some s -> s * 1000 < 2 ^ 64)%N -> o_resume o = false ->
    exists x tg, reached w o t x tg /\ starts_from_corpus td (w_id w) m m' (ex_name x) tg args.
Proof.
  intros td autos w o m m' t r args P E I T Rs.
  destruct (C89_foreground_fuzzer w o m m' t r args E I T) as (x & tg & R & F). rewrite Rs in F.
  assert (R' : reached w o t x tg) by (now apply R). exists x, tg. split; [exact R'|].
  eapply starts_from; eauto. exact Logic.I.
Qed.
Print Assumptions C114_foreground.

(** So does, unless resumed, the first fuzzer of each target that the parallel loop starts. *)
Theorem C114_parallel :
  forall (td : path) (autos : exe -> str -> list bytes) (w : world) (o : opts) (m m' : fs) (t : list act) (r : rres unit) (os : list Sched.out),
    possible td autos m (Invoked w o) ->
    run w o m = (m', t, r) -> In (AParallel os) t ->
    (forall s, o_timeout o = Some s -> s * 1000 < 2 ^ 64)%N -> o_resume o = false ->
    exists (fl : list (executable * str)) (n : nat),
      forall before i e first after, os = before ++ Sched.OStart i e first :: after ->
        (forall e' f', ~ In (Sched.OStart i e' f') before) ->
        exists x tg args,
          nth_error fl i = Some (x, tg) /\ reached w o t x tg /\
          start_command w (adjust o) fl n e first = Some (Ret args) /\
          starts_from_corpus td (w_id w) m m' (ex_name x) tg args.
Proof.
  intros td autos w o m m' t r os P E I T Rs.
  destruct (C89_parallel_fuzzers w o m m' t r os E I T) as (fl & n & F & H). exists fl, n.
  intros before i e first after Q N. destruct (H _ _ _ _ _ Q) as (x & tg & args & Nth & _ & SC & FF).
  assert (R : reached w o t x tg) by (apply F; eapply nth_error_In; eauto).
  exists x, tg, args. split; [exact Nth|]. split; [exact R|]. split; [exact SC|].
  assert (Z : existsb (fun ev => match ev with Sched.OStart j _ _ => j =? i | _ => false end) before = false).
  { destruct (existsb _ before) eqn:X; [|reflexivity]. exfalso. apply existsb_exists in X as (ev & J & X).
    destruct ev as [j e' f'| | | | | |]; try discriminate X. apply Nat.eqb_eq in X as ->. exact (N _ _ J). }
  rewrite Rs, Z in FF. cbn [orb] in FF. eapply starts_from; eauto. exact Logic.I.
Qed.
Print Assumptions C114_parallel.

(** What a test has recorded at any time before is in the directory given to the fuzzer. *)
Theorem C114_recorded_is_fuzzed :
  forall (td : path) (autos : exe -> str -> list bytes) (w : world) (o : opts) (c rest target : str) (b : bytes) (d : path)
         (h : list event) (m0 m1 m' : fs) (t : list act) (r : rres unit) (args : list str) (x : executable),
    crate_of (ex_name x) c -> ~ occurs (lit "_fuzz__") (c ++ lit "::" ++ target ++ lit "_fuzz_") ->
    dir_from_args_type td (w_id w) Corpus (args_type_name c target rest) = Ret d ->
    write_data m0 d b = (m1, true) ->
    plausible td autos m1 (h ++ [Invoked w o]) -> always_unique b m1 (h ++ [Invoked w o]) ->
    run w o (history m1 h) = (m', t, r) -> reached w o t x target ->
    (forall s, o_timeout o = Some s -> s * 1000 < 2 ^ 64)%N -> o_resume o = false ->
    In (AForeground args) t ->
    (exists more, args = lit "-c-" :: lit "-i" :: lossy (path_text d) :: more) /\
    m' !! (d ++ [corpus_name b]) = Some (File b).
Proof.
  intros td autos w o c rest target b d h m0 m1 m' t r args x C O D W P A E R T Rs I.
  assert (PH : forall h m, plausible td autos m (h ++ [Invoked w o]) -> plausible td autos m h /\ possible td autos (history m h) (Invoked w o)).
  { clear. induction h as [|e h IH]; intros m P; cbn [app plausible] in P; [split; [exact I|apply P]|].
    destruct P as [P1 P2]. apply IH in P2 as [P2 P3]. split; [split; assumption|exact P3]. }
  destruct (PH _ _ P) as (P1 & P2).
  assert (A1 : always_unique b m1 h) by (intros h1 h2 ->; apply (A h1 (h2 ++ [Invoked w o])); now rewrite app_assoc).
  pose proof (C101_recording_kept td autos (w_id w) (ex_name x) c target rest b d h m0 m1 C O D W P1 A1) as (d' & D' & L).
  rewrite (dir_agreement td (w_id w) Corpus (ex_name x) c target rest C O) in D. rewrite D in D'. assert (d' = d) as -> by (now inversion D').
  destruct (C89_foreground_fuzzer w o _ m' t r args E I T) as (x' & tg' & R' & F). apply R' in R as [-> ->]. rewrite Rs in F.
  assert (R'' : reached w o t x' tg') by (now apply R').
  destruct (starts_from _ _ _ _ _ _ _ _ _ _ _ _ _ P2 E I Logic.I R'' F) as (d'' & more & D'' & -> & _ & K).
  rewrite D in D''. assert (d'' = d) as -> by (now inversion D''). split; [eauto|]. apply K; [|exact L].
  pose proof (A (h ++ [Invoked w o]) [] (eq_sym (app_nil_r _))) as U. rewrite history_app in U. cbn [history fold_left happen] in U. fold history in U.
  change (fold_left happen h m1) with (history m1 h) in U. now rewrite E in U.
Qed.
Print Assumptions C114_recorded_is_fuzzed.

(** After "hi" has been recorded for target "f": fuzzing that target starts from the directory with
    "hi"; fuzzing target "g" starts from the corpus generated before; if none can be generated,
    fuzzing the two starts nothing. *)
Transparent sha1 corpus_name.
Definition ex_no_gen : world :=
  {| w_cargo := w_cargo ex_hw; w_parse := w_parse ex_hw; w_afl := w_afl ex_hw; w_terminal := false; w_build := w_build ex_hw; w_listing := w_listing ex_hw;
     w_self := w_self ex_hw; w_show := w_show ex_hw; w_id := None; w_io := w_io ex_hw; w_width := None; w_clean := true; w_eio := w_eio ex_hw;
     w_lcov := w_lcov ex_hw; w_report := w_report ex_hw; w_gen := fun m _ _ => (m, true);
     w_cpus := 4; w_checks := true; w_foreground := true; w_strip := fun b => b; w_session := [] |}.
Definition ex_foreground (t : list act) : list (list str) := flat_map (fun a => match a with AForeground args => [firstn 3 args] | _ => [] end) t.
Example C114_example :
  let m := history ∅ ex_first in
  possible [lit "t"] ex_autos m (Invoked ex_hw (ex_fuzz (Some (lit "f")))) /\
  match run ex_hw (ex_fuzz (Some (lit "f"))) m with (m', t, _) => (ex_foreground t, fs_read m' (ex_corpus (lit "f") ++ [corpus_name (lit "hi")]), exists_ m' (ex_corpus (lit "g"))) end
    = ([[lit "-c-"; lit "-i"; lit "/t/corpus/k::f"]], Some (lit "hi"), false) /\
  match run ex_hw (ex_fuzz (Some (lit "g"))) m with (m', t, _) => (ex_foreground t, fs_read m' (ex_corpus (lit "g") ++ [corpus_name (lit "1")])) end
    = ([[lit "-c-"; lit "-i"; lit "/t/corpus/k::g"]], Some (lit "1")) /\
  match run ex_no_gen (ex_fuzz None) m with (_, t, r) => (existsb (fun a => match a with AForeground _ => true | AParallel _ => true | _ => false end) t, r) end
    = (false, RErr ([LF] ++ lit "Could not find or auto-generate `/t/corpus/k::g`. Please ensure `g` is tested.")).
Proof. split; [now apply ex_possible|]. vm_compute. auto. Qed.
