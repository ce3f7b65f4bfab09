(** C100: why an invocation fails, and what it says. *)
From Coq Require Import String List Ascii Bool Arith NArith Lia.
From stdpp Require Import gmap strings.
From Verif Require Import Base Utf8 Lossy Decimal Env Dirs Opts Targets Semver Sha1 Fs Write Meta FuzzCmd Build AutoGen Run RunFacts PropsSemver PropsFuzzCmd PropsMeta.
From Verif Require Consolidate Entries Sched SchedProofs Ui Lines PropsSched PropsRun PropsRun4.
Import ListNotations.
Local Open Scope nat_scope.

(** * Specification *)

Definition on_path (op : string) (p : path) : str := lit "`" ++ lit op ++ lit "` failed for `" ++ lossy (path_text p) ++ lit "`".

(** The action [a] failed, and [e] is what is said about it.  [reach]: the targets dealt with. *)
Inductive failure (w : world) (o : opts) (reach : executable -> str -> Prop) : act -> str -> Prop :=
| f_start args silent : w_build w args = None -> failure w o reach (ABuild args silent) (lit "`start` failed")
| f_build args silent ms : w_build w args = Some (false, ms) -> failure w o reach (ABuild args silent) (lit "Command failed")
| f_lookup args silent ms md id name exe e :
    w_build w args = Some (true, ms) ->
    q_md (w_cargo w) (o_no_default_features o) (o_features o ++ [lit "test-fuzz/__persistent"]) (o_manifest_path o) = Some md -> In (Artifact id name true (Some exe)) ms ->
    broken (mt_md md) id e \/ (exists t, dependency (mt_md md) id (lit "test-fuzz") (Some t) /\ broken (mt_md md) t e) ->
    failure w o reach (ABuild args silent) e
| f_listing x p : In p (split_inclusive (w_listing w x)) -> valid_utf8 p = false -> failure w o reach (AListTests x) (lit "Could not get output")
| f_consolidate_list x tg sub dir m :
    reach x tg -> In sub ["crashes"; "hangs"; "queue"]%string -> output_subdir (q_td (w_cargo w)) (w_id w) (lit sub) (ex_name x) tg = Ret dir ->
    Consolidate.i_ls (w_io w) m dir = None \/ (exists ns, Consolidate.i_ls (w_io w) m dir = Some ns /\ In None ns) ->
    failure w o reach AConsolidate (on_path "read_dir" dir)
| f_consolidate_read x tg sub dir n m :
    reach x tg -> In sub ["crashes"; "hangs"; "queue"]%string -> output_subdir (q_td (w_cargo w)) (w_id w) (lit sub) (ex_name x) tg = Ret dir ->
    n <> lit "README.txt" -> n <> lit ".state" -> Consolidate.i_rd (w_io w) m (dir ++ [n]) = None ->
    failure w o reach AConsolidate (on_path "read" (dir ++ [n]))
| f_consolidate_write x tg dir data m :
    reach x tg -> dir_from_target (q_td (w_cargo w)) (w_id w) Corpus (ex_name x) tg = Ret dir ->
    Consolidate.i_wr (w_io w) m dir data <> None \/ snd (write_data m dir data) = false ->
    failure w o reach AConsolidate (on_path "test_fuzz::runtime::write_data" dir)
| f_reset x tg dir m :
    reach x tg -> dir_from_target (q_td (w_cargo w)) (w_id w) Output (ex_name x) tg = Ret dir -> exists_ m dir = true ->
    Consolidate.i_rm (w_io w) m dir <> None \/ remove_dir_all m dir = None ->
    failure w o reach AReset (on_path "remove_dir_all" dir)
| f_clean : w_clean w = false -> failure w o reach AClean (lit "Command failed")
| f_entry x tg dir es rct raw e :
    reach x tg -> Entries.for_each_entry dir o tg rct raw (w_eio w x tg) = (es, Err e) ->
    failure w o reach (ATarget x tg dir es) e
| f_report args : w_report w args = false -> failure w o reach (AReport args) (lit "Command failed")
| f_generate att ns m m' xts e :
    (forall x tg, In (x, tg) xts -> exists y, reach y tg /\ x = as_exe y) ->
    auto_generate_corpora (q_td (w_cargo w)) (w_id w) (w_gen w) m xts = (m', att, ns, Err e) -> failure w o reach (AGenerate att ns) e
| f_foreground args : w_foreground w = false -> failure w o reach (AForeground args) (lit "Command failed")
| f_session k os e :
    (forall tg, In tg (Sched.k_names k) -> exists x, reach x tg) ->
    Sched.run (w_strip w) k (Sched.s_init k) (w_session w) = (Sched.Finished (Err e), os) -> failure w o reach (AParallel os) e.

(** A dependency of an executable does not fit the binary that is run. *)
Definition unfit (show : version -> str) (name dep : str) (dv : option version) (binary : str) (bv : version) (e : str) : Prop :=
  (dv = None /\ e = lit "`" ++ name ++ lit "` does not depend on `" ++ dep ++ lit "`") \/
  (exists d, dv = Some d /\ release bv /\ ~ (compatible d bv /\ (release d \/ ~ older bv d)) /\
     e = lit "`" ++ name ++ lit "` depends on `" ++ dep ++ lit " " ++ show d ++ lit "`, which is incompatible with `"
         ++ binary ++ lit " " ++ show bv ++ lit "`.").

(** The invocation is refused although nothing failed. *)
Inductive refused (w : world) (o : opts) (listed : executable -> Prop) (reach : executable -> str -> Prop) : str -> Prop :=
| r_coverage b word : o_coverage o = Some b ->
    In (b, word) [(CorpusInstrumented, "corpus-instrumented"); (CrashesInstrumented, "crashes-instrumented"); (GenericArgs_, "generic-args");
                  (HangsInstrumented, "hangs-instrumented"); (ImplGenericArgs_, "impl-generic-args"); (QueueInstrumented, "queue-instrumented")]%string ->
    refused w o listed reach (lit "`--coverage " ++ lit word ++ lit "` is invalid.")
| r_replay b word : o_replay o = Some b -> In (b, word) [(GenericArgs_, "generic-args"); (ImplGenericArgs_, "impl-generic-args")]%string ->
    refused w o listed reach (lit "`--replay " ++ lit word ++ lit "` is invalid.")
| r_test_fuzz x e : listed x -> unfit (w_show w) (ex_name x) (lit "test-fuzz") (ex_test_fuzz x) (lit "cargo-test-fuzz") (w_self w) e ->
    refused w o listed reach e
| r_afl x afl e : listed x -> cached_cargo_afl_version (w_parse w) (w_afl w) = Ret afl ->
    unfit (w_show w) (ex_name x) (lit "afl") (ex_afl x) (lit "cargo-afl") afl e -> refused w o listed reach e
| r_no_target : (forall x tg, ~ reach x tg) ->
    refused w o listed reach
      (lit "Found no fuzz targets" ++ match o_ztarget o with
                                      | None => []
                                      | Some pat => (if o_exact o then lit " equal to `" else lit " containing `") ++ pat ++ lit "`"
                                      end)
| r_cpus : (o_cpus o = Some 0 \/ (o_cpus o = None /\ w_cpus w <= 1) \/ w_cpus w = 0) ->
    refused w o listed reach (lit "Number of cpus must be greater than zero")
| r_time k n a b : o_max_total_time o <> None -> 1 <= k < n -> numeral (N.of_nat k) a -> numeral (N.of_nat n) b ->
    refused w o listed reach (lit "--max-total-time cannot be used when number of cpus (" ++ a ++ lit ") is less than number of fuzz targets (" ++ b ++ lit ")")
| r_lcov : o_coverage o <> None -> w_lcov w = None -> refused w o listed reach (lit "Could not determine whether lcov.info exists").

(** [a] succeeded. *)
Definition succeeded (w : world) (o : opts) (a : act) : Prop :=
  match a with
  | ABuild args _ => exists ms, w_build w args = Some (true, ms)
  | AListTests x => exists ts, targets (w_listing w x) = Ret ts
  | AConsolidate => exists m m' h l, Consolidate.consolidate (w_io w) (q_td (w_cargo w)) (w_id w) o l m = (m', h, Ret tt)
  | AReset => exists m m' h l, Consolidate.reset (w_io w) (q_td (w_cargo w)) (w_id w) o l m = (m', h, Ret tt)
  | AClean => w_clean w = true
  | ATarget x tg dir es =>
      exists b rct raw, (o_coverage o = Some b \/ (o_coverage o = None /\ o_display o = Some b) \/
                         (o_coverage o = None /\ o_display o = None /\ o_replay o = Some b)) /\
        Entries.flags_and_dir (q_td (w_cargo w)) (w_id w) b (ex_name x) tg = Ret (rct, raw, dir) /\
        Entries.for_each_entry dir o tg rct raw (w_eio w x tg) = (es, Ret tt)
  | AReport args => w_report w args = true
  | AGenerate att ns => exists m m' xts, auto_generate_corpora (q_td (w_cargo w)) (w_id w) (w_gen w) m xts = (m', att, ns, Ret tt)
  | AForeground _ => w_foreground w = true
  | AParallel os => exists k, Sched.run (w_strip w) k (Sched.s_init k) (w_session w) = (Sched.Finished (Ret tt), os)
  | AVersion | ACompiler _ | AVersionNote _ | APrintList _ | AHeading _ | ANote _ | ACpus _ => True
  end.

(** * Proofs *)

(** What the errors of a phase satisfy, and what its actions satisfy if it ends well. *)
Definition fails {A} (P : list act -> str -> Prop) (p : phase A) : Prop := forall m m' t e, p m = (m', t, RErr e) -> P t e.
Definition goes {A} (Q : act -> Prop) (p : phase A) : Prop := forall m m' t a, p m = (m', t, ROk a) -> Forall Q t.

Lemma fails_bind {A B} (P : list act -> str -> Prop) (x : phase A) (f : A -> phase B) :
  (forall t t' e, P t e -> P (t' ++ t) e) -> fails P x -> (forall a, fails P (f a)) -> fails P (pbind x f).
Proof.
  intros C X F m m' t e E. apply pbind_inv in E as [(m1 & t1 & t2 & a & E1 & E2 & ->)|(r1 & E1 & _ & _ & K & _)].
  - apply C. exact (F a _ _ _ _ E2).
  - rewrite (proj1 (K e) eq_refl) in E1. exact (X _ _ _ _ E1).
Qed.

Lemma fails_bind_lift {A B} (P : list act -> str -> Prop) (x : outcome A) (f : A -> phase B) :
  (forall e, x = Err e -> P [] e) -> (forall a, x = Ret a -> fails P (f a)) -> fails P (pbind (plift x) f).
Proof.
  intros X F m m' t e E. destruct x as [a|e'|].
  - unfold pbind, plift in E. destruct (f a m) as [[m2 t2] r2] eqn:G. cbn [app] in E.
    assert (r2 = RErr e /\ t2 = t) as [-> ->] by (split; congruence). exact (F a eq_refl _ _ _ _ G).
  - assert (t = [] /\ e' = e) as [-> ->] by (unfold pbind, plift in E; split; congruence). now apply X.
  - discriminate E.
Qed.

Lemma fails_ret {A} P (a : A) : fails P (pret a). Proof. intros m m' t e E. discriminate E. Qed.
Lemma fails_act P a : fails P (pact a). Proof. intros m m' t e E. discriminate E. Qed.
Lemma fails_lift {A} (P : list act -> str -> Prop) (x : outcome A) : (forall e, x = Err e -> P [] e) -> fails P (plift x).
Proof. intros H m m' t e E. destruct x as [a|e'|]; try discriminate E. assert (t = [] /\ e' = e) as [-> ->] by (unfold plift in E; split; congruence). now apply H. Qed.
Lemma fails_act_then {A} (P : list act -> str -> Prop) a (q : phase A) :
  fails (fun t e => P (a :: t) e) q -> fails P (pbind (pact a) (fun _ => q)).
Proof.
  intros H m m' t e E. unfold pbind, pact in E. destruct (q m) as [[m2 t2] r2] eqn:Q. cbn [app] in E.
  assert (r2 = RErr e /\ t = a :: t2) as [-> ->] by (split; congruence). exact (H _ _ _ _ Q).
Qed.
Lemma fails_for {A} (P : list act -> str -> Prop) (f : A -> phase unit) l :
  (forall t t' e, P t e -> P (t' ++ t) e) -> (forall a, In a l -> fails P (f a)) -> fails P (pfor f l).
Proof.
  intros C. induction l as [|a l IH]; intros H; [apply fails_ret|]. cbn [pfor]. apply fails_bind; [exact C|apply H; now left|].
  intros _. apply IH. intros b I. apply H. now right.
Qed.

Lemma goes_bind {A B} (Q : act -> Prop) (x : phase A) (f : A -> phase B) : goes Q x -> (forall a, goes Q (f a)) -> goes Q (pbind x f).
Proof.
  intros X F m m' t b E. apply pbind_inv in E as [(m1 & t1 & t2 & a & E1 & E2 & ->)|(r1 & _ & _ & N & _)]; [|exfalso; now apply (N b)].
  apply Forall_app. split; [exact (X _ _ _ _ E1)|exact (F a _ _ _ _ E2)].
Qed.
Lemma goes_ret {A} (Q : act -> Prop) (a : A) : goes Q (pret a). Proof. intros m m' t b E. injection E as _ <- _. constructor. Qed.
Lemma goes_lift {A} (Q : act -> Prop) (x : outcome A) : goes Q (plift x). Proof. intros m m' t b E. unfold plift in E. assert (t = []) as -> by congruence. constructor. Qed.
Lemma goes_act (Q : act -> Prop) a : Q a -> goes Q (pact a). Proof. intros H m m' t b E. injection E as _ <- _. now repeat constructor. Qed.
Lemma goes_for {A} (Q : act -> Prop) (f : A -> phase unit) l : (forall a, goes Q (f a)) -> goes Q (pfor f l).
Proof. intros H. induction l as [|a l IH]; [apply goes_ret|]. cbn [pfor]. apply goes_bind; [apply H|intros _; exact IH]. Qed.
(** An action followed by the check of its answer. *)
Lemma goes_checked {A} (Q : act -> Prop) a (q : phase A) :
  (forall m m' t b, q m = (m', t, ROk b) -> Q a /\ Forall Q t) -> goes Q (pbind (pact a) (fun _ => q)).
Proof.
  intros H m m' t b E. unfold pbind, pact in E. destruct (q m) as [[m2 t2] r2] eqn:K. cbn [app] in E.
  assert (r2 = ROk b /\ t = a :: t2) as [-> ->] by (split; congruence). destruct (H _ _ _ _ K). now constructor.
Qed.

Lemma mapM_err_at {A B} (f : A -> outcome B) l e : mapM f l = Err e -> exists a, In a l /\ f a = Err e.
Proof.
  induction l as [|a l IH]; cbn [mapM]; [discriminate|]. destruct (f a) as [b|e'|] eqn:F; cbn [bind]; [|intros [= ->]; exists a; split; [now left|exact F]|discriminate].
  destruct (mapM f l) as [bs|e'|]; cbn [bind]; [discriminate| |discriminate]. intros [= ->].
  destruct (IH eq_refl) as (a' & I & F'). exists a'. split; [now right|exact F'].
Qed.

Lemma targets_err out e : targets out = Err e -> e = lit "Could not get output" /\ exists p, In p (split_inclusive out) /\ valid_utf8 p = false.
Proof.
  unfold targets. induction (split_inclusive out) as [|p ps IH]; cbn [targets_loop]; [discriminate|].
  destruct (valid_utf8 p) eqn:V.
  - destruct (target_of_line (chomp p)).
    + destruct (targets_loop ps) as [ts|e'|]; cbn [bind]; try discriminate. intros H. assert (e' = e) by now inversion H. subst e'.
      destruct (IH eq_refl) as (-> & q & I & Q). split; [reflexivity|]. exists q. split; [now right|exact Q].
    + intros H. destruct (IH H) as (-> & q & I & Q). split; [reflexivity|]. exists q. split; [now right|exact Q].
  - intros H. split; [now inversion H|]. exists p. split; [now left|exact V].
Qed.

Lemma executables_err md ms e : executables md ms = Err e -> exists id name exe, In (Artifact id name true (Some exe)) ms /\ test_fuzz_and_afl_versions md id = Err e.
Proof.
  induction ms as [|x ms IH]; cbn [executables]; [discriminate|]. intros E.
  assert (K : executables md ms = Err e -> exists id name exe, In (Artifact id name true (Some exe)) (x :: ms) /\ test_fuzz_and_afl_versions md id = Err e).
  { intros H. destruct (IH H) as (id & name & exe & I & V). exists id, name, exe. split; [now right|exact V]. }
  destruct x as [id name [|] [exe|]|s|]; try (exact (K E)).
  destruct (test_fuzz_and_afl_versions md id) as [v|e'|] eqn:V; cbn [bind] in E; [| |discriminate].
  - destruct (executables md ms) as [l|e'|]; cbn [bind] in E; [discriminate| |discriminate]. apply K. congruence.
  - exists id, name, exe. split; [now left|]. congruence.
Qed.

(** No error comes out of the computations that can only panic. *)
Lemma dir_from_target_no_err td id k krate tg e : dir_from_target td id k krate tg <> Err e.
Proof. rewrite dir_from_target_eq. discriminate. Qed.
Lemma mapM_no_err {A B} (f : A -> outcome B) l : (forall a e, f a <> Err e) -> forall e, mapM f l <> Err e.
Proof. intros H e E. apply mapM_err_at in E as (a & _ & E). exact (H a e E). Qed.
Lemma output_subdir_no_err td id s krate tg e : output_subdir td id s krate tg <> Err e.
Proof. unfold output_subdir. rewrite dir_from_target_eq. discriminate. Qed.
Lemma flags_and_dir_no_err td id b krate tg e : Entries.flags_and_dir td id b krate tg <> Err e.
Proof.
  unfold Entries.flags_and_dir, output_subdir. destruct b; rewrite dir_from_target_eq; discriminate.
Qed.
Lemma fuzz_args_no_err checks o c td id x tg e : fuzz_args checks o c td id x tg <> Err e.
Proof.
  unfold fuzz_args. rewrite !dir_from_target_eq. destruct (_ || _); cbn [bind];
    (destruct (o_timeout o); cbn [bind]; [unfold mul64; destruct (_ <? _)%N; [discriminate|destruct checks; discriminate]|discriminate]).
Qed.
Lemma prepare_no_err q o e : prepare q no_caches o <> Err e.
Proof.
  unfold prepare, no_caches, get_or_init, own_metadata, asked_target_directory, own_target_directory, own_llvm_envs. cbn [c_md c_td c_llvm].
  destruct (q_md _ _ _ _); cbn [bind]; [|discriminate].
  destruct (q_here q); cbn [bind]; [|discriminate]. unfold target_directory. destruct (_ && _)%bool; cbn [bind]; [discriminate|].
  destruct (negb _); cbn [bind]; [discriminate|]. destruct (q_env q) as [b|]; cbn [bind]; [|discriminate].
  destruct (valid_utf8 b); cbn [bind]; [|discriminate]. destruct (mapM _ _) as [l|e'|] eqn:M; cbn [bind]; try discriminate.
  exfalso. revert M. apply mapM_no_err. intros a e''. unfold env_of_line. destruct (split_once _ a) as [[k v]|]; discriminate.
Qed.
Lemma prefix_no_err strip s n e : Ui.prefix_with_width strip s n <> Err e.
Proof. unfold Ui.prefix_with_width. destruct (Ui.pw_loop _ _ _ _ _ _) as [k| |]; try discriminate. destruct (slice_to s k); discriminate. Qed.
Lemma divider_no_err strip tg n e : Ui.divider_with_width strip tg n <> Err e.
Proof. unfold Ui.divider_with_width. cbv zeta. destruct (_ <=? _); [apply prefix_no_err|discriminate]. Qed.
Lemma refresh_no_err strip no_ui size n cs e : Ui.refresh strip no_ui size n cs <> Err e.
Proof.
  unfold Ui.refresh. destruct no_ui; [discriminate|]. destruct size as [[rows cols]|]; [|discriminate].
  destruct (_ <? _); [discriminate|]. cbv zeta. destruct (_ =? _); [|discriminate].
  generalize (rows - (n + 1)). intros avail. generalize 0. induction cs as [|[c|] cs IH]; intros i; cbn [Ui.draw_panels].
  - discriminate.
  - unfold Ui.draw_panel. destruct (Ui.divider_with_width _ _ _) as [d|e'|] eqn:D; cbn [bind]; [|destruct (divider_no_err _ _ _ _ D)|discriminate].
    destruct (mapM _ _) as [l|e'|] eqn:M; cbn [bind]; [| |discriminate].
    + specialize (IH (S i)). destruct (Ui.draw_panels _ _ _ _ _ cs) as [[r c']|e'|]; cbn [bind]; try discriminate. intros X. apply IH. assert (e' = e) by congruence. now subst.
    + exfalso. revert M. apply mapM_no_err. intros a e''. destruct (nth_error _ a); [apply prefix_no_err|discriminate].
  - specialize (IH i). destruct (Ui.draw_panels _ _ _ _ _ cs) as [[r c']|e'|]; cbn [bind]; try discriminate. intros X. apply IH. assert (e' = e) by congruence. now subst.
Qed.

(** Where consolidating and resetting fail. *)
Lemma for_each_err {A} (f : A -> fs -> Consolidate.res) l : forall m m' h e,
  Consolidate.for_each f l m = (m', h, Err e) -> exists a m1 m2 h2, In a l /\ f a m1 = (m2, h2, Err e).
Proof.
  induction l as [|a l IH]; intros m m' h e; cbn [Consolidate.for_each]; [discriminate|].
  unfold Consolidate.seq. destruct (f a m) as [[m1 h1] [u|e'|]] eqn:F.
  - destruct (Consolidate.for_each f l m1) as [[m2 h2] o2] eqn:G. intros E. assert (o2 = Err e) by congruence. subst o2.
    destruct (IH _ _ _ _ G) as (b & n1 & n2 & k & I & B). exists b, n1, n2, k. split; [now right|exact B].
  - intros E. assert (e' = e) by congruence. subst e'. exists a, m, m1, h1. split; [now left|exact F].
  - discriminate.
Qed.
Lemma check_err b f m m' h e : Consolidate.check b f m = (m', h, Err e) -> f m = (m', h, Err e).
Proof. unfold Consolidate.check. destruct b; [auto|discriminate]. Qed.

Section Causes.
  Variables (w : world) (o : opts) (l : list (executable * list str)).
  Definition reached : executable -> str -> Prop := fun x tg => exists ts, In (x, ts) l /\ In tg ts.
  Let td := q_td (w_cargo w).

  Lemma consolidate_err m m' h e : Consolidate.consolidate (w_io w) td (w_id w) o (by_name l) m = (m', h, Err e) -> failure w o reached AConsolidate e.
  Proof.
    unfold Consolidate.consolidate. intros E. apply check_err, for_each_err in E as ((k & ts) & m1 & m2 & h2 & I & E).
    unfold by_name in I. apply in_map_iff in I as ([x ts'] & K & I). cbn [fst snd] in K. injection K as <- ->.
    apply check_err in E. cbn [fst snd] in E. apply for_each_err in E as (tg & m3 & m4 & h4 & J & E).
    assert (R : reached x tg) by (exists ts; auto).
    unfold Consolidate.cons_target, Consolidate.with_dir in E.
    destruct (dir_from_target td (w_id w) Corpus (ex_name x) tg) as [corpus|e'|] eqn:D; [| |discriminate].
    2:{ exfalso. exact (dir_from_target_no_err _ _ _ _ _ _ D). }
    destruct (output_subdir td (w_id w) (lit "crashes") (ex_name x) tg) as [d1|e'|] eqn:D1; [| |discriminate]; [|exfalso; exact (output_subdir_no_err _ _ _ _ _ _ D1)].
    destruct (output_subdir td (w_id w) (lit "hangs") (ex_name x) tg) as [d2|e'|] eqn:D2; [| |discriminate]; [|exfalso; exact (output_subdir_no_err _ _ _ _ _ _ D2)].
    destruct (output_subdir td (w_id w) (lit "queue") (ex_name x) tg) as [d3|e'|] eqn:D3; [| |discriminate]; [|exfalso; exact (output_subdir_no_err _ _ _ _ _ _ D3)].
    apply for_each_err in E as (dir & m5 & m6 & h6 & Id & E).
    assert (Sub : exists sub, In sub ["crashes"; "hangs"; "queue"]%string /\ output_subdir td (w_id w) (lit sub) (ex_name x) tg = Ret dir).
    { destruct Id as [<-|[<-|[<-|[]]]]; [exists "crashes"%string|exists "hangs"%string|exists "queue"%string]; (split; [cbn [In]; tauto|assumption]). }
    destruct Sub as (sub & Is & S). unfold Consolidate.cons_dir in E. destruct (Consolidate.i_ls (w_io w) m5 dir) as [ns|] eqn:Ls.
    2:{ assert (e = on_path "read_dir" dir) as -> by (injection E as _ _ <-; reflexivity). apply (f_consolidate_list w o _ x tg sub dir m5 R Is S). now left. }
    apply for_each_err in E as (n & m7 & m8 & h8 & In_ & E). unfold Consolidate.cons_entry in E. destruct n as [n|].
    2:{ assert (e = on_path "read_dir" dir) as -> by (injection E as _ _ <-; reflexivity). apply (f_consolidate_list w o _ x tg sub dir m5 R Is S). right. eauto. }
    destruct (Consolidate.skipped n) eqn:Sk; [discriminate|].
    assert (N : n <> lit "README.txt" /\ n <> lit ".state").
    { unfold Consolidate.skipped in Sk. apply orb_false_iff in Sk as [S1 S2]. apply str_eqb_neq in S1, S2. auto. }
    destruct (Consolidate.i_rd (w_io w) m7 (dir ++ [n])) as [data|] eqn:Rd.
    2:{ assert (e = on_path "read" (dir ++ [n])) as -> by (injection E as _ _ <-; reflexivity). now apply (f_consolidate_read w o _ x tg sub dir n m7 R Is S). }
    destruct (Consolidate.i_wr (w_io w) m7 corpus data) as [k|] eqn:Wr.
    { assert (e = on_path "test_fuzz::runtime::write_data" corpus) as -> by (injection E as _ _ <-; reflexivity).
      apply (f_consolidate_write w o _ x tg corpus data m7 R D). left. congruence. }
    destruct (write_data m7 corpus data) as [m9 [|]] eqn:Wd; [discriminate|].
    assert (e = on_path "test_fuzz::runtime::write_data" corpus) as -> by (injection E as _ _ <-; reflexivity).
    apply (f_consolidate_write w o _ x tg corpus data m7 R D). right. now rewrite Wd.
  Qed.

  Lemma reset_err m m' h e : Consolidate.reset (w_io w) td (w_id w) o (by_name l) m = (m', h, Err e) -> failure w o reached AReset e.
  Proof.
    unfold Consolidate.reset. intros E. apply check_err, for_each_err in E as ((k & ts) & m1 & m2 & h2 & I & E).
    unfold by_name in I. apply in_map_iff in I as ([x ts'] & K & I). cbn [fst snd] in K. injection K as <- ->.
    apply check_err in E. cbn [fst snd] in E. apply for_each_err in E as (tg & m3 & m4 & h4 & J & E).
    assert (R : reached x tg) by (exists ts; auto).
    unfold Consolidate.reset_target, Consolidate.with_dir in E.
    destruct (dir_from_target td (w_id w) Output (ex_name x) tg) as [dir|e'|] eqn:D; [| |discriminate]; [|exfalso; exact (dir_from_target_no_err _ _ _ _ _ _ D)].
    destruct (exists_ m3 dir) eqn:X; [|discriminate].
    destruct (Consolidate.i_rm (w_io w) m3 dir) as [m5|] eqn:Rm; [|destruct (remove_dir_all m3 dir) as [m5|] eqn:Rd; [discriminate|]];
      (assert (e = on_path "remove_dir_all" dir) as -> by (injection E as _ _ <-; reflexivity)); apply (f_reset w o _ x tg dir m3 R D X).
    - left. congruence.
    - now right.
  Qed.

  (** An error after preparation. *)
  Definition culprit (reach : executable -> str -> Prop) (t : list act) (e : str) : Prop :=
    exists t1 a t2, t = t1 ++ a :: t2 /\ (forall b, In b t2 -> exists s, b = ACompiler s) /\ failure w o reach a e.

  Lemma culprit_last reach t a e : failure w o reach a e -> culprit reach (t ++ [a]) e.
  Proof. intros F. exists t, a, []. split; [reflexivity|]. split; [intros b []|exact F]. Qed.
  Lemma culprit_prefix reach t t' e : culprit reach t e -> culprit reach (t' ++ t) e.
  Proof. intros (t1 & a & t2 & -> & H). exists (t' ++ t1), a, t2. split; [now rewrite <- app_assoc|exact H]. Qed.

  Definition blamed (listed : executable -> Prop) (t : list act) (e : str) : Prop := culprit reached t e \/ refused w o listed reached e.
  Lemma blamed_prefix listed t t' e : blamed listed t e -> blamed listed (t' ++ t) e.
  Proof. intros [H|H]; [left; now apply culprit_prefix|now right]. Qed.

  Variable listed : executable -> Prop.

  Lemma clear_fails c : fails (blamed listed) (p_clear w o c l).
  Proof.
    assert (IO : forall a f, (forall m m' h e, f m = (m', h, Err e) -> failure w o reached a e) -> fails (blamed listed) (p_io a f)).
    { intros a f H m m' t e E. unfold p_io in E. destruct (f m) as [[m1 h] [u|e'|]] eqn:F; try congruence.
      assert (e' = e /\ t = [a]) as [-> ->] by (split; congruence). left. apply (culprit_last reached []). exact (H _ _ _ _ F). }
    unfold p_clear. apply fails_bind; [apply blamed_prefix| |intros _].
    - destruct c; [|apply fails_ret]. apply IO. exact consolidate_err.
    - apply IO. exact reset_err.
  Qed.

  Lemma flatten_err e : flatten_executable_targets (o_exact o) (o_ztarget o) l = Err e -> refused w o listed reached e.
  Proof.
    unfold flatten_executable_targets. destruct (flat_map _ l) as [|z f] eqn:F; [|discriminate]. intros E.
    assert (E' : e = lit "Found no fuzz targets" ++ match o_ztarget o with None => [] | Some pat => (if o_exact o then lit " equal to `" else lit " containing `") ++ pat ++ lit "`" end).
    { inversion E. unfold match_message. destruct (o_ztarget o); [|reflexivity]. now destruct (o_exact o). }
    rewrite E'. apply r_no_target. intros x tg (ts & I & J).
    assert (K : In (x, tg) (flat_map (fun et : executable * list str => map (fun t => (fst et, t)) (snd et)) l)).
    { apply in_flat_map. exists (x, ts). split; [exact I|]. apply in_map_iff. now exists tg. }
    rewrite F in K. destruct K.
  Qed.

  Lemma show_fails : fails (blamed listed) (p_show w o l).
  Proof.
    unfold p_show. cbv zeta. apply fails_bind; [apply blamed_prefix| |intros _].
    { destruct (is_some _); [|apply fails_ret]. apply fails_act_then. destruct (w_clean w) eqn:C; [apply fails_ret|].
      apply fails_lift. intros e E. assert (e = lit "Command failed") as -> by now inversion E. left. apply (culprit_last reached []). now constructor. }
    apply fails_bind_lift; [intros e E; right; now apply flatten_err|]. intros fl FL.
    apply fails_bind; [apply blamed_prefix| |intros _].
    - apply fails_for; [apply blamed_prefix|]. intros [x tg] I. apply (flatten_in _ _ _ _ x tg) in FL. apply FL in I. cbn [snd fst].
      apply fails_bind; [apply blamed_prefix| |intros _].
      + unfold p_heading. destruct (1 <? List.length fl); [|apply fails_ret]. apply fails_bind_lift; [|intros; apply fails_act].
        intros e E. exfalso. exact (divider_no_err _ _ _ _ E).
      + unfold p_entries. destruct (chosen_object o) as [b|]; [|apply fails_ret].
        apply fails_bind_lift; [intros e E; exfalso; exact (flags_and_dir_no_err _ _ _ _ _ _ E)|].
        intros [[rct raw] dir] _. cbv zeta. cbn [fst snd]. apply fails_act_then. apply fails_lift. intros e E.
        left. apply (culprit_last reached []). apply (f_entry w o reached x tg dir _ rct raw e I).
        destruct (Entries.for_each_entry _ _ _ _ _ _) as [es r]. cbn [fst snd] in *. now rewrite E.
    - destruct (o_coverage o) as [b|] eqn:C; cbn [is_some]; [|apply fails_ret]. unfold p_report. destruct (w_lcov w) as [lc|] eqn:L.
      2:{ apply fails_lift. intros e E. assert (e = lit "Could not determine whether lcov.info exists") as -> by now inversion E.
          right. apply r_lcov; [congruence|exact L]. }
      apply fails_bind; [apply blamed_prefix|destruct lc; [apply fails_act|apply fails_ret]|intros _].
      apply fails_act_then. destruct (w_report w (report_args o)) eqn:R; [apply fails_act|]. apply fails_lift. intros e E.
      assert (e = lit "Command failed") as -> by now inversion E. left. apply (culprit_last reached []). now constructor.
  Qed.

  Lemma plan_err n e : fuzz_plan (w_cpus w) o n = Err e -> refused w o listed reached e.
  Proof.
    unfold fuzz_plan. destruct (is_some (o_coverage o)); [discriminate|]. destruct (negb (o_exit_code o) && (n =? 1)); [discriminate|].
    destruct (match o_cpus o with Some n0 => Ret n0 | None => match w_cpus w with 0 => Panic | S n0 => Ret n0 end end) as [k|e'|] eqn:K; cbn [bind]; [| |discriminate].
    2:{ exfalso. destruct (o_cpus o); [discriminate|]. destruct (w_cpus w); discriminate. }
    cbv zeta. destruct (1 <=? Nat.min k (w_cpus w)) eqn:E1; cbn [negb].
    - apply Nat.leb_le in E1. destruct (n <=? Nat.min k (w_cpus w)) eqn:E2; cbn [negb andb]; [discriminate|]. apply Nat.leb_gt in E2.
      destruct (o_max_total_time o) eqn:M; cbn [is_some]; [|discriminate]. intros E.
      pose proof (r_time w o listed reached (Nat.min k (w_cpus w)) n (dec (N.of_nat (Nat.min k (w_cpus w)))) (dec (N.of_nat n))) as H.
      inversion E. apply H; [congruence|lia|apply dec_numeral|apply dec_numeral].
    - apply Nat.leb_gt in E1. intros E. assert (e = lit "Number of cpus must be greater than zero") as -> by now inversion E.
      apply r_cpus. destruct (o_cpus o) as [j|].
      + assert (j = k) by congruence. subst j. destruct k as [|k]; [now left|]. right. right. lia.
      + right. destruct (w_cpus w) as [|j]; [discriminate|]. left. split; [reflexivity|]. assert (j = k) by congruence. lia.
  Qed.

  Lemma fuzz_fails fl : flatten_executable_targets (o_exact o) (o_ztarget o) l = Ret fl -> fails (blamed listed) (p_fuzz w o fl).
  Proof.
    intros FL. unfold p_fuzz. destruct (is_some (o_coverage o)); [apply fails_lift; discriminate|]. cbv zeta.
    apply fails_bind; [apply blamed_prefix| |intros _].
    { intros m m' t e E. destruct (auto_generate_corpora _ _ _ _ _) as [[[m1 att] ns] [u|e'|]] eqn:G; try discriminate E.
      assert (e' = e /\ t = [AGenerate att ns]) as [-> ->] by (split; congruence). left. apply (culprit_last reached []).
      refine (f_generate w o reached att ns m m1 _ e _ G). intros x tg I. apply in_map_iff in I as ([y tg'] & K & I). cbn [fst snd] in K.
      injection K as <- ->. exists y. split; [|reflexivity]. now apply (flatten_in _ _ _ _ y tg) in FL; apply FL. }
    apply fails_bind_lift; [intros e E; right; exact (plan_err _ _ E)|]. intros [|n] _.
    - destruct (map _ fl) as [|[x tg] xts]; [apply fails_ret|].
      apply fails_bind_lift; [intros e E; exfalso; exact (fuzz_args_no_err _ _ _ _ _ _ _ _ E)|]. intros args _.
      apply fails_act_then. destruct (w_foreground w) eqn:W; [apply fails_ret|]. apply fails_lift. intros e E.
      assert (e = lit "Command failed") as -> by now inversion E. left. apply (culprit_last reached []). now constructor.
    - apply fails_bind; [apply blamed_prefix|destruct (_ <=? _); [apply fails_ret|apply fails_act]|intros _].
      apply fails_bind_lift; [intros e E; exfalso; revert E; apply mapM_no_err; intros; apply fuzz_args_no_err|]. intros _ _.
      apply fails_act_then. set (k := {| Sched.k_names := _ |}).
      destruct (Sched.run (w_strip w) k (Sched.s_init k) (w_session w)) as [res os] eqn:R. cbn [fst snd].
      destruct res as [s|x|]; [intros m m' t e E; discriminate E| |intros m m' t e E; discriminate E].
      apply fails_lift. intros e ->. left. apply (culprit_last reached []). apply (f_session w o reached k os e); [|exact R].
      intros tg I. cbn [Sched.k_names k] in I. apply in_map_iff in I as ([x tg'] & <- & I). exists x. now apply (flatten_in _ _ _ _ x tg') in FL; apply FL.
  Qed.

  Lemma dispatch_fails : fails (blamed listed) (dispatch w o l).
  Proof.
    unfold dispatch. destruct (o_list o); [apply fails_act|]. destruct (o_no_run o); [apply fails_ret|].
    destruct (_ || _); [apply clear_fails|]. destruct (_ || _); [apply clear_fails|]. destruct (_ || _); [apply show_fails|].
    apply fails_bind_lift; [intros e E; right; now apply flatten_err|]. intros fl FL. now apply fuzz_fails.
  Qed.
End Causes.

(** ** Preparation *)

Lemma check_err_unfit show name dep dv binary bv e : snd (check_dependency_version name dep dv binary bv) = Some e -> unfit show name dep dv binary bv (vmsg_text show e).
Proof.
  intros E. destruct dv as [d|].
  2:{ left. split; [reflexivity|]. cbn [check_dependency_version snd] in E. injection E as <-. reflexivity. }
  right. exists d. split; [reflexivity|].
  assert (NA : ~ accepted (check_dependency_version name dep (Some d) binary bv)) by (unfold accepted; rewrite E; discriminate).
  assert (e = Incompatible name dep d binary bv) as ->.
  { unfold check_dependency_version in E. destruct (_ && _); [cbn [snd] in E; congruence|]. destruct (negb _); discriminate E. }
  assert (Rb : release bv).
  { destruct (v_pre bv) as [|i l] eqn:V; [exact V|]. exfalso. apply NA, C40_prerelease_tool. unfold release. rewrite V. discriminate. }
  split; [exact Rb|]. split; [|reflexivity]. intros [C H]. destruct (v_pre d) as [|i l] eqn:V.
  - apply NA. rewrite (C40_release_exact name dep d binary bv V Rb). exact C.
  - assert (NR : ~ release d) by (unfold release; rewrite V; discriminate). destruct H as [H|H]; [contradiction|].
    apply NA. rewrite (C40_prerelease_dependency name dep d binary bv NR Rb). auto.
Qed.

Section Preparation.
  Variables (w : world) (o : opts).

  Lemma build_fails reach : fails (culprit w o reach) (p_build w o).
  Proof.
    unfold p_build. apply fails_bind_lift; [intros e E; exfalso; exact (prepare_no_err _ _ _ E)|].
    intros [c [[md td] env]] P. cbn [snd]. set (args := build_args o td (w_terminal w)).
    apply fails_act_then. destruct (w_build w args) as [[[|] ms]|] eqn:B.
    - apply fails_lift. intros e E. apply executables_err in E as (id & name & exe & I & E). apply C68_error_text in E.
      apply (culprit_last w o reach []). apply (f_lookup w o reach args _ ms md id name exe e B); [|exact I|].
      + unfold prepare, get_or_init, no_caches, own_metadata in P. cbn [c_md c_td c_llvm] in P.
        destruct (q_md _ _ _ _) as [md'|]; cbn [bind] in P; [|discriminate].
        unfold asked_target_directory in P. destruct (q_here _); [|discriminate P].
        destruct (own_target_directory _ _); cbn [bind] in P; try discriminate.
        destruct (own_llvm_envs _ _ _ _); cbn [bind] in P; try discriminate. congruence.
      + destruct E as [E|(_ & E)]; [now left|now right].
    - intros m m' t e E. unfold pbind in E. assert (F : forall ms m, exists u, pfor p_compiler ms m = (m, map ACompiler u, ROk tt)).
      { clear. induction ms as [|x ms IH]; intros m; [exists []; reflexivity|]. cbn [pfor]. unfold pbind. destruct (IH m) as (u & U).
        destruct x as [id name b e|s|]; cbn [p_compiler pact pret]; rewrite U; [exists u|exists (s :: u)|exists u]; reflexivity. }
      destruct (F ms m) as (u & U). rewrite U in E. unfold perr, plift in E.
      assert (e = lit "Command failed" /\ t = map ACompiler u) as [-> ->] by (rewrite app_nil_r in E; split; [now inversion E|congruence]).
      exists [], (ABuild args (silence_stderr o)), (map ACompiler u). split; [reflexivity|]. split; [|exact (f_build w o reach args _ ms B)].
      intros b I. apply in_map_iff in I as (s & <- & _). now exists s.
    - apply fails_lift. intros e E. assert (e = lit "`start` failed") as -> by now inversion E.
      apply (culprit_last w o reach []). now constructor.
  Qed.

  Lemma listing_fails reach xs : fails (culprit w o reach) (p_targets w o xs).
  Proof.
    unfold p_targets. apply fails_bind; [intros; now apply culprit_prefix| |intros; apply fails_ret].
    induction xs as [|x xs IH]; [apply fails_ret|]. cbn [pmap]. apply fails_bind; [intros; now apply culprit_prefix| |intros].
    - apply fails_act_then. apply fails_bind_lift; [|intros; apply fails_ret]. intros e E. apply targets_err in E as (-> & p & I & V).
      apply (culprit_last w o reach []). exact (f_listing w o reach x p I V).
    - apply fails_bind; [intros; now apply culprit_prefix|exact IH|intros; apply fails_ret].
  Qed.

  Lemma filter_sub {E} exact pat (l : list (E * list str)) x ts : In (x, ts) (filter_executable_targets exact pat l) -> exists ts', In (x, ts') l.
  Proof.
    induction l as [|[e us] l IH]; cbn [filter_executable_targets]; [intros []|]. match goal with |- context [match ?f with [] => _ | _ => _ end] => destruct f as [|u us'] end.
    - intros I. destruct (IH I) as (ts' & J). exists ts'. now right.
    - intros [I|I]; [exists us; left; congruence|]. destruct (IH I) as (ts' & J). exists ts'. now right.
  Qed.

  Definition misfit (t : list act) (e : str) : Prop :=
    exists x, In (AListTests x) t /\
      (unfit (w_show w) (ex_name x) (lit "test-fuzz") (ex_test_fuzz x) (lit "cargo-test-fuzz") (w_self w) e \/
       exists afl, cached_cargo_afl_version (w_parse w) (w_afl w) = Ret afl /\
                   unfit (w_show w) (ex_name x) (lit "afl") (ex_afl x) (lit "cargo-afl") afl e).

  Lemma prepare_fails reach : fails (fun t e => culprit w o reach t e \/ misfit t e) (p_prepare w o).
  Proof.
    assert (C : forall t t' e, culprit w o reach t e \/ misfit t e -> culprit w o reach (t' ++ t) e \/ misfit (t' ++ t) e).
    { intros t t' e [H|(x & I & H)]; [left; now apply culprit_prefix|right]. exists x. split; [|exact H]. apply in_app_iff. now right. }
    unfold p_prepare. apply fails_bind; [exact C|apply fails_act|intros _].
    apply fails_bind_lift; [intros e E; unfold cached_cargo_afl_version in E; now destruct (cargo_afl_version _ _)|]. intros afl AFL.
    apply fails_bind; [exact C| |intros xs]. { intros m m' t e E. left. exact (build_fails reach _ _ _ _ E). }
    intros m m' t e E. apply pbind_inv in E as [(m1 & t1 & t2 & l & E1 & E & ->)|(r1 & E1 & _ & _ & K & _)].
    2:{ left. rewrite (proj1 (K e) eq_refl) in E1. exact (listing_fails reach _ _ _ _ _ E1). }
    right. apply targets_ok in E1 as (l1 & M & -> & L).
    apply pbind_inv in E as [(m3 & t3 & t4 & u & _ & E & _)|(r1 & E3 & _ & _ & K & _)]; [discriminate E|].
    rewrite (proj1 (K e) eq_refl) in E3. unfold p_versions in E3. cbv zeta in E3.
    apply pbind_inv in E3 as [(m3 & t3 & t4 & u & _ & E & ->)|(r2 & E3 & _ & _ & K2 & _)].
    2:{ rewrite (proj1 (K2 e) eq_refl) in E3. exfalso. revert E3. clear. generalize m1, (fst (check_versions (w_self w) afl (map (fun et => as_vexe (fst et)) l))).
        intros n ns. revert n m' t2. induction ns as [|v ns IH]; intros n m' t2; cbn [pfor]; [discriminate|]. unfold pbind, pact.
        destruct (pfor _ ns n) as [[m2 u2] r2] eqn:F. intros E. assert (r2 = RErr e) as -> by congruence. exact (IH _ _ _ F). }
    destruct (snd (check_versions _ _ _)) as [v|] eqn:V; [|discriminate E]. unfold perr, plift in E.
    assert (e = vmsg_text (w_show w) v) as -> by congruence.
    apply check_versions_first in V as (ys & vx & zs & Eq & _ & V).
    assert (I : In vx (map (fun et => as_vexe (fst et)) l)) by (rewrite Eq; apply in_app_iff; right; now left).
    apply in_map_iff in I as ([x ts] & <- & I). cbn [fst] in V.
    assert (Ix : In x xs).
    { apply mapM_listing in M as [M1 _]. rewrite <- M1. assert (J : exists ts', In (x, ts') l1).
      { subst l. destruct (o_ztarget o); [apply filter_sub in I as (ts' & I)|]; apply filter_In in I as [I _]; eauto. }
      destruct J as (ts' & J). apply in_map_iff. now exists (x, ts'). }
    exists x. split; [apply in_app_iff; left; apply in_map_iff; now exists x|]. destruct V as [V|[_ V]].
    - left. exact (check_err_unfit (w_show w) _ _ _ _ _ _ V).
    - right. exists afl. split; [exact AFL|]. exact (check_err_unfit (w_show w) _ _ _ _ _ _ V).
  Qed.
End Preparation.

Lemma failure_mono w o (r1 r2 : executable -> str -> Prop) a e : (forall x tg, r1 x tg -> r2 x tg) -> failure w o r1 a e -> failure w o r2 a e.
Proof.
  intros H F. inversion F; subst; try (econstructor; eauto; fail).
  - eapply f_generate; [|eassumption]. intros x tg I. destruct (H0 x tg I) as (y & R & E). eauto.
  - eapply f_session; [|eassumption]. intros tg I. destruct (H0 tg I) as (x & R). eauto.
Qed.

Lemma refused_mono w o (l1 l2 : executable -> Prop) (r1 r2 : executable -> str -> Prop) e :
  (forall x, l1 x -> l2 x) -> (forall x tg, r1 x tg <-> r2 x tg) -> refused w o l1 r1 e -> refused w o l2 r2 e.
Proof.
  intros L H F. inversion F; subst; try (econstructor; eauto; fail).
  apply r_no_target. intros x tg R. apply H in R. eapply H0; exact R.
Qed.

Lemma for_each_entry_same dir o o' tg rct raw s :
  o_coverage o' = o_coverage o -> o_replay o' = o_replay o -> o_display o' = o_display o -> o_timeout o' = o_timeout o -> o_exact o' = o_exact o ->
  o_pretty o' = o_pretty o -> o_backtrace o' = o_backtrace o ->
  Entries.for_each_entry dir o' tg rct raw s = Entries.for_each_entry dir o tg rct raw s.
Proof.
  intros C R D T X P B. unfold Entries.for_each_entry.
  assert (L : forall ns f, Entries.entry_loop dir o' tg raw s f ns = Entries.entry_loop dir o tg raw s f ns).
  { induction ns as [|n ns IH]; intros f; cbn [Entries.entry_loop]; [reflexivity|].
    assert (St : Entries.entry_step dir o' tg raw s f n = Entries.entry_step dir o tg raw s f n) by (unfold Entries.entry_step; now rewrite T).
    rewrite St. destruct (Entries.entry_step dir o tg raw s f n) as [es [f'|x|]]; [now rewrite IH|reflexivity..]. }
  destruct (negb (Entries.e_exists s)); [reflexivity|]. destruct (Entries.e_list s) as [ns|]; [|reflexivity].
  rewrite L. destruct (Entries.entry_loop _ _ _ _ _ _ _) as [es [f|x|]]; try reflexivity. unfold Entries.present_participle. now rewrite C, R, D.
Qed.

Lemma failure_adjust w o reach a e : failure w (adjust o) reach a e -> failure w o reach a e.
Proof.
  unfold adjust. destruct (o_exit_code o); [|auto]. intros F. inversion F; subst; try (econstructor; eauto; fail).
  apply (f_entry w o reach x tg dir es rct raw e H). rewrite <- H0. symmetry. now apply for_each_entry_same.
Qed.

Lemma refused_adjust w o listed reach e : refused w (adjust o) listed reach e -> refused w o listed reach e.
Proof.
  unfold adjust. destruct (o_exit_code o); [|auto]. intros F. inversion F; subst; try (econstructor; eauto; fail).
  apply (r_no_target w o listed reach). assumption.
Qed.

Lemma dispatch_lists_none w o l m m' t r : dispatch w o l m = (m', t, r) -> forall x, ~ In (AListTests x) t.
Proof.
  intros E x I.
  assert (W : exists j, within (of_job j) (dispatch w o l)).
  { unfold dispatch. destruct (o_list o); [exists JList; now apply within_act|]. destruct (o_no_run o); [exists JList; apply within_ret|].
    destruct (_ || _); [exists JClear; apply clear_within|]. destruct (_ || _); [exists JClear; apply clear_within|].
    destruct (_ || _); [exists JShow; apply show_within|]. exists JFuzz. apply within_bind; [apply within_lift|]. intros fl. apply fuzz_within. }
  destruct W as (j & W). apply W in E. rewrite Forall_forall in E. apply elem_of_list_In in I. specialize (E _ I). now destruct j.
Qed.

Lemma run_text w o m m' t e : run_without_exit_code w (adjust o) m = (m', t, RErr e) ->
  (exists t1 a t2, t = t1 ++ a :: t2 /\ (forall b, In b t2 -> exists s, b = ACompiler s) /\
     failure w o (fun x tg => In (AListTests x) t /\ (exists ts, targets (w_listing w x) = Ret ts /\ In tg ts) /\ selected o tg) a e) \/
  refused w o (fun x => In (AListTests x) t)
    (fun x tg => In (AListTests x) t /\ (exists ts, targets (w_listing w x) = Ret ts /\ In tg ts) /\ selected o tg) e.
Proof.
  pose proof (adjust_same o) as (A1 & A2 & _ & _ & _ & _ & _ & _ & _ & _ & A11 & A12 & _).
  assert (S : forall tg, selected (adjust o) tg <-> selected o tg) by (intros tg; unfold selected; now rewrite A11, A12).
  intros E. apply run_inv in E as [(b & B & K & _ & -> & R)|[(b & B & K & _ & _ & -> & R)|[_ E]]].
  - right. rewrite A1 in B. assert (R' : e = invalid_object (lit "--coverage") b) by now inversion R. clear R.
    assert (X : exists word, In (b, word) [(CorpusInstrumented, "corpus-instrumented"); (CrashesInstrumented, "crashes-instrumented"); (GenericArgs_, "generic-args");
                  (HangsInstrumented, "hangs-instrumented"); (ImplGenericArgs_, "impl-generic-args"); (QueueInstrumented, "queue-instrumented")]%string /\
              invalid_object (lit "--coverage") b = lit "`--coverage " ++ lit word ++ lit "` is invalid.").
    { destruct b; try discriminate K; eexists; (split; [cbn [In]; auto 10|vm_compute; reflexivity]). }
    destruct X as (word & I & X). rewrite R', X. exact (r_coverage w o _ _ b word B I).
  - right. rewrite A2 in B. assert (R' : e = invalid_object (lit "--replay") b) by now inversion R. clear R.
    assert (X : exists word, In (b, word) [(GenericArgs_, "generic-args"); (ImplGenericArgs_, "impl-generic-args")]%string /\
              invalid_object (lit "--replay") b = lit "`--replay " ++ lit word ++ lit "` is invalid.").
    { destruct b; try discriminate K; eexists; (split; [cbn [In]; auto 10|vm_compute; reflexivity]). }
    destruct X as (word & I & X). rewrite R', X. exact (r_replay w o _ _ b word B I).
  - apply pbind_inv in E as [(m1 & t1 & t2 & l & P & E & ->)|(r1 & P & _ & _ & K & _)].
    + assert (D := dispatch_fails w (adjust o) l (fun x => In (AListTests x) t1) _ _ _ _ E).
      assert (N2 : forall x, ~ In (AListTests x) t2) by (intros x I; exact (dispatch_lists_none w (adjust o) l _ _ _ _ E x I)).
      assert (LL : forall x, In (AListTests x) t1 <-> In (AListTests x) (t1 ++ t2)) by (intros x; rewrite in_app_iff; specialize (N2 x); tauto).
      assert (RR : forall x tg, reached l x tg <-> In (AListTests x) (t1 ++ t2) /\ (exists ts, targets (w_listing w x) = Ret ts /\ In tg ts) /\ selected o tg).
      { intros x tg. unfold reached. rewrite (prepare_targets _ _ _ _ _ _ P), LL, S. reflexivity. }
      destruct D as [(u1 & a & u2 & -> & U & F)|F].
      * left. exists (t1 ++ u1), a, u2. split; [now rewrite <- app_assoc|]. split; [exact U|].
        apply failure_adjust. eapply failure_mono; [|exact F]. intros x tg. apply RR.
      * right. apply refused_adjust. eapply refused_mono; [| |exact F]; [intros x; apply LL|exact RR].
    + rewrite (proj1 (K e) eq_refl) in P. apply (prepare_fails w (adjust o) (fun _ _ => False)) in P as [(u1 & a & u2 & -> & U & F)|(x & I & F)].
      * left. exists u1, a, u2. split; [reflexivity|]. split; [exact U|]. apply failure_adjust. eapply failure_mono; [|exact F]. intros x tg [].
      * right. destruct F as [F|(afl & A & F)]; [exact (r_test_fuzz w o _ _ x e I F)|exact (r_afl w o _ _ x afl e I A F)].
Qed.

(** ** The session *)

Lemma readable_dec rs : Lines.readable rs \/ ~ Lines.readable rs.
Proof. induction rs as [|r rs IH]; cbn; [auto|]. destruct r as [[|c b]| | |]; auto. Qed.

Lemma event_err k s ev e os : Sched.event_step k s ev = (Sched.Finished (Err e), os) ->
  (~ Lines.readable (Sched.ev_reads ev) /\ e = lit "read") \/
  (exists rest a b, Lines.splits (rest ++ Lines.delivered (Sched.ev_reads ev)) a b /\ valid_utf8 a = false /\ e = lit "utf8") \/
  (Sched.ev_closed ev = true /\ Sched.ev_deregister ev = false /\ e = lit "Could not deregister receiver") \/
  (Sched.ev_closed ev = true /\ Sched.ev_wait ev = None /\ e = lit "wait").
Proof.
  unfold Sched.event_step. cbv zeta. destruct (_ <=? _); [discriminate|]. destruct (nth_error _ _) as [[c|]|]; try discriminate.
  destruct (Lines.read_event _ _) as [[d ls]|e'|] eqn:R; [| |discriminate].
  - destruct (Sched.ev_closed ev); [|discriminate]. destruct (Sched.ev_deregister ev).
    + destruct (Sched.s_n s); [discriminate|]. destruct (Sched.ev_wait ev) as [b|].
      * destruct (negb b); [discriminate|]. destruct (negb _); [discriminate|]. destruct (_ && _); discriminate.
      * intros E. right. right. right. repeat split. now inversion E.
    + intros E. right. right. left. repeat split. now inversion E.
  - intros E. assert (e' = e) by congruence. subst e'. clear E. unfold Lines.read_event in R.
    set (u := Lines.cd_unprinted (Ui.ch_data c)) in R. destruct (Lines.splits_exists (u ++ Lines.delivered (Sched.ev_reads ev))) as (a & b & S).
    destruct (readable_dec (Sched.ev_reads ev)) as [Rd|Rd].
    + rewrite (Lines.read_lines_spec u _ a b Rd S) in R. destruct (valid_utf8 a) eqn:V; cbn [bind] in R; [discriminate|].
      right. left. exists u, a, b. split; [exact S|]. split; [exact V|]. now inversion R.
    + left. split; [exact Rd|]. unfold Lines.read_lines in R. rewrite (Lines.read_loop_err u _ Rd) in R. cbn [bind] in R. now inversion R.
Qed.

Lemma events_err k evs : forall s e os, Sched.events_steps k s evs = (Sched.Finished (Err e), os) ->
  exists ev s' os', In ev evs /\ Sched.event_step k s' ev = (Sched.Finished (Err e), os').
Proof.
  induction evs as [|ev evs IH]; intros s e os; cbn [Sched.events_steps]; [discriminate|].
  destruct (Sched.event_step k s ev) as [[s1|x|] o1] eqn:E; [|intros H|discriminate].
  - destruct (Sched.events_steps k s1 evs) as [r2 o2] eqn:E2. cbn [fst snd]. intros H. assert (r2 = Sched.Finished (Err e)) as -> by congruence.
    destruct (IH _ _ _ E2) as (ev' & s' & os' & I & X). exists ev', s', os'. split; [now right|exact X].
  - exists ev, s, o1. split; [now left|]. congruence.
Qed.

(** C100: why a session of parallel fuzzing fails. *)
Theorem C100_session_error :
  forall (strip : bytes -> bytes) (k : Sched.cfg) (xs : list Sched.input) (os : list Sched.out) (e : str),
    0 < Sched.k_cpus k -> Sched.run strip k (Sched.s_init k) xs = (Sched.Finished (Err e), os) ->
    (e = lit "All targets failed to start" /\ forall i, i < Sched.k_n k -> Sched.failed os i) \/
    exists x, In x xs /\
      ((e = lit "spawn" /\ Sched.in_spawn x = false) \/
       (e = lit "`poll` failed" /\ Sched.in_poll x = None) \/
       exists evs ev, Sched.in_poll x = Some evs /\ In ev evs /\
         ((e = lit "read" /\ ~ Lines.readable (Sched.ev_reads ev)) \/
          (e = lit "utf8" /\ exists rest a b, rest ++ Lines.delivered (Sched.ev_reads ev) = a ++ LF :: b /\ valid_utf8 (a ++ [LF]) = false /\ ~ In LF b) \/
          (Sched.ev_closed ev = true /\
           ((e = lit "Could not deregister receiver" /\ Sched.ev_deregister ev = false) \/ (e = lit "wait" /\ Sched.ev_wait ev = None))))).
Proof.
  intros strip k xs os e K R. destruct (str_eqb e (lit "All targets failed to start")) eqn:A.
  { apply str_eqb_eq in A. subst e. left. split; [reflexivity|]. exact (PropsSched.C54_gives_up_only_if_all_failed strip k xs os K R). }
  apply str_eqb_neq in A. right.
  apply SchedProofs.run_last in R as (xs1 & x & xs2 & s & o1 & o2 & -> & _ & St & _). exists x. split; [apply in_app_iff; right; now left|].
  unfold Sched.step in St. destruct (Ui.refresh _ _ _ _ _) as [[rows cs]|e'|] eqn:Rf; [|destruct (refresh_no_err _ _ _ _ _ _ Rf)|discriminate].
  cbv zeta in St. destruct (_ =? _); [exfalso; apply A; now inversion St|]. destruct (_ && _).
  - destruct (Sched.mem _ _); [discriminate|]. destruct (nth_error _ _) as [[c|]|]; try discriminate; [destruct (Sched.sufficient k); discriminate|].
    destruct (_ || _); [|discriminate]. destruct (Sched.in_spawn x); [discriminate|]. left. split; [now inversion St|reflexivity].
  - destruct (_ =? _); [destruct (_ && _); discriminate|]. destruct (Sched.in_poll x) as [evs|]; [|right; left; split; [now inversion St|reflexivity]].
    right. right. exists evs. destruct (Sched.events_steps k _ evs) as [r2 o3] eqn:E. cbn [fst snd] in St.
    assert (r2 = Sched.Finished (Err e)) as -> by congruence. apply events_err in E as (ev & s' & os' & I & E). exists ev.
    split; [reflexivity|]. split; [exact I|]. apply event_err in E as [[H ->]|[(rest & a & b & (S1 & S2 & S3) & V & ->)|[(C & H & ->)|(C & H & ->)]]]; [auto| | |].
    + right. left. split; [reflexivity|]. destruct S3 as [->|(a' & ->)]; [discriminate V|]. exists rest, a', b. rewrite S1, <- app_assoc. auto.
    + right. right. auto.
    + right. right. auto.
Qed.
Print Assumptions C100_session_error.

(** ** What an invocation that succeeds has done *)

Section Done.
  Variables (w : world) (o : opts).

  Lemma build_goes : goes (succeeded w o) (p_build w o).
  Proof.
    unfold p_build. apply goes_bind; [apply goes_lift|]. intros [c [[md td] env]]. cbn [snd].
    apply goes_checked. intros m m' t b E. destruct (w_build w _) as [[[|] ms]|] eqn:B.
    - split; [eexists; exact B|]. unfold plift in E. assert (t = []) as -> by congruence. constructor.
    - exfalso. unfold perr in E. apply pbind_inv in E as [(m1 & t1 & t2 & u & _ & E & _)|(r1 & _ & _ & N & _)]; [discriminate E|exact (N _ eq_refl)].
    - discriminate E.
  Qed.
  Lemma targets_goes xs : goes (succeeded w o) (p_targets w o xs).
  Proof.
    intros m m' t l E. apply targets_ok in E as (l1 & M & -> & _). apply mapM_listing in M as [M1 M2]. subst xs.
    rewrite Forall_forall in M2. apply Forall_forall. intros a I. apply elem_of_list_In, in_map_iff in I as (x & <- & I). apply in_map_iff in I as ([x' ts] & <- & I).
    apply elem_of_list_In in I. exists ts. exact (M2 _ I).
  Qed.
  Lemma versions_goes afl l : goes (succeeded w o) (p_versions w afl l).
  Proof.
    unfold p_versions. cbv zeta. apply goes_bind; [apply goes_for; intros; now apply goes_act|intros _].
    destruct (snd _); [apply goes_lift|apply goes_ret].
  Qed.
  Lemma prepare_goes : goes (succeeded w o) (p_prepare w o).
  Proof.
    unfold p_prepare. apply goes_bind; [now apply goes_act|intros _]. apply goes_bind; [apply goes_lift|intros afl].
    apply goes_bind; [apply build_goes|intros xs]. apply goes_bind; [apply targets_goes|intros l].
    apply goes_bind; [apply versions_goes|intros _; apply goes_ret].
  Qed.
  Lemma clear_goes b l : goes (succeeded w o) (p_clear w o b l).
  Proof.
    assert (IO : forall a f, (forall m m' h u, f m = (m', h, Ret u) -> succeeded w o a) -> goes (succeeded w o) (p_io a f)).
    { intros a f H m m' t u E. unfold p_io in E. destruct (f m) as [[m1 h] [v|e|]] eqn:F; try congruence.
      assert (t = [a]) as -> by congruence. constructor; [exact (H _ _ _ _ F)|constructor]. }
    unfold p_clear. apply goes_bind; [|intros _].
    - destruct b; [|apply goes_ret]. apply IO. intros m m' h [] E. do 4 eexists. exact E.
    - apply IO. intros m m' h [] E. do 4 eexists. exact E.
  Qed.
  Lemma show_goes l : goes (succeeded w o) (p_show w o l).
  Proof.
    assert (N : forall a (b : bool) (q : phase unit), goes (succeeded w o) q -> (b = true -> succeeded w o a) ->
              goes (succeeded w o) (pbind (pact a) (fun _ => if b then q else perr (lit "Command failed")))).
    { intros a b q Q B. apply goes_checked. intros m m' t u E. destruct b; [|discriminate E]. split; [now apply B|]. exact (Q _ _ _ _ E). }
    unfold p_show. cbv zeta. apply goes_bind; [destruct (is_some _); [|apply goes_ret]; apply N; [apply goes_ret|auto]|intros _].
    apply goes_bind; [apply goes_lift|intros fl]. apply goes_bind; [|intros _].
    - apply goes_for. intros [x tg]. cbn [fst snd]. apply goes_bind.
      + unfold p_heading. destruct (_ <? _); [|apply goes_ret]. apply goes_bind; [apply goes_lift|intros d; now apply goes_act].
      + intros _. unfold p_entries. destruct (chosen_object o) as [b|] eqn:Co; [|apply goes_ret].
        cbn [fst snd]. intros m m' t u E. unfold pbind at 1, plift at 1 in E.
        destruct (Entries.flags_and_dir _ _ b (ex_name x) tg) as [[[rct raw] dir]|e|] eqn:FD; try discriminate E.
        match type of E with match ?q m with _ => _ end = _ => assert (G : goes (succeeded w o) q) end.
        2:{ match type of E with match ?q m with _ => _ end = _ => destruct (q m) as [[m3 t3] r3] eqn:Q end.
            assert (t = t3 /\ r3 = ROk u) as [-> ->] by now inversion E. exact (G _ _ _ _ Q). }
        cbv zeta. cbn [fst snd]. clear E m m' t u. apply goes_checked. intros m m' t u E. unfold plift in E.
        destruct (Entries.for_each_entry dir o tg rct raw (w_eio w x tg)) as [es r] eqn:F. cbn [fst snd] in *.
        destruct r as [v|e|]; try discriminate E. destruct v. assert (t = []) as -> by congruence. split; [|constructor]. exists b, rct, raw.
        split; [|split; [exact FD|exact F]]. unfold chosen_object in Co. destruct (o_coverage o), (o_display o); auto.
    - destruct (is_some _); [|apply goes_ret]. unfold p_report. destruct (w_lcov w) as [b|]; [|apply goes_lift].
      apply goes_bind; [destruct b; [now apply goes_act|apply goes_ret]|intros _]. apply N; [now apply goes_act|auto].
  Qed.
  Lemma fuzz_goes fl : goes (succeeded w o) (p_fuzz w o fl).
  Proof.
    unfold p_fuzz. destruct (is_some _); [apply goes_lift|]. cbv zeta. apply goes_bind; [|intros _].
    { intros m m' t u E. destruct (auto_generate_corpora _ _ _ _ _) as [[[m1 att] ns] [v|e|]] eqn:G; try discriminate E.
      assert (t = [AGenerate att ns]) as -> by congruence. constructor; [|constructor]. destruct v. do 3 eexists. exact G. }
    apply goes_bind; [apply goes_lift|intros [|n]].
    - destruct (map _ fl) as [|[x tg] xts]; [apply goes_ret|]. apply goes_bind; [apply goes_lift|intros args].
      apply goes_checked. intros m m' t u E. destruct (w_foreground w) eqn:W; [|discriminate E]. split; [exact W|]. exact (goes_ret _ tt _ _ _ _ E).
    - apply goes_bind; [destruct (_ <=? _); [apply goes_ret|now apply goes_act]|intros _]. apply goes_bind; [apply goes_lift|intros _].
      apply goes_checked. set (k := {| Sched.k_names := _ |}). intros m m' t u E.
      destruct (Sched.run (w_strip w) k (Sched.s_init k) (w_session w)) as [[s|x|] os] eqn:R; cbn [fst snd] in *; try discriminate E.
      unfold plift in E. destruct x as [[]|e|]; try discriminate E. assert (t = []) as -> by congruence.
      split; [exists k; exact R|constructor].
  Qed.
  Lemma dispatch_goes l : goes (succeeded w o) (dispatch w o l).
  Proof.
    unfold dispatch. destruct (o_list o); [now apply goes_act|]. destruct (o_no_run o); [apply goes_ret|].
    destruct (_ || _); [apply clear_goes|]. destruct (_ || _); [apply clear_goes|]. destruct (_ || _); [apply show_goes|].
    apply goes_bind; [apply goes_lift|intros fl; apply fuzz_goes].
  Qed.
End Done.

Lemma succeeded_adjust w o a : succeeded w (adjust o) a -> succeeded w o a.
Proof.
  unfold adjust. destruct (o_exit_code o); [|auto]. destruct a; try exact id.
  intros (b & rct & raw & C & D & H). exists b, rct, raw. split; [exact C|]. split; [exact D|]. rewrite <- H. symmetry. now apply for_each_entry_same.
Qed.

(** * Theorems *)

(** C100: an invocation that reports an error has a reason, and the report tells it: either the
    last thing done (compiler messages aside) failed, or the invocation is refused.  The status
    is 2 with --exit-code and otherwise 1. *)
Theorem C100_error_cause :
  forall (w : world) (o : opts) (m m' : fs) (t : list act) (r : rres unit) (s : str),
    run w o m = (m', t, r) -> complaint w o m = Some s ->
    let listed x := In (AListTests x) t in
    let reach x tg := In (AListTests x) t /\ (exists ts, targets (w_listing w x) = Ret ts /\ In tg ts) /\ selected o tg in
    exists e, s = (if o_exit_code o then [] else lit "Error: ") ++ e /\
      status r = Some (if o_exit_code o then 2 else 1) /\
      ((exists t1 a t2, t = t1 ++ a :: t2 /\ (forall b, In b t2 -> exists text, b = ACompiler text) /\ failure w o reach a e) \/
       refused w o listed reach e).
Proof.
  intros w o m m' t r s E C listed reach. unfold complaint in C. apply run_eq in E as (r0 & E & R). rewrite E in C.
  destruct r0 as [u|e| |n|]; try discriminate C. exists e. split; [destruct (o_exit_code o); now inversion C|].
  split; [rewrite R; now destruct (o_exit_code o)|]. exact (run_text w o m m' t e E).
Qed.
Print Assumptions C100_error_cause.

(** C100: errors are not lost: without a report, the status is not 2, and it is 1 only if a
    session of parallel fuzzing with --exit-code found something. *)
Theorem C100_no_error :
  forall (w : world) (o : opts) (m m' : fs) (t : list act) (r : rres unit),
    run w o m = (m', t, r) -> complaint w o m = None ->
    status r <> Some 2 /\
    (status r = Some 1 ->
     o_exit_code o = true /\ exists os t1 i t2, In (AParallel os) t /\ os = t1 ++ Sched.OEnd i true false :: t2 /\
       ~ exists l, In l (Sched.cur_lines t1 i) /\ occurs (lit "Time limit was reached") l).
Proof.
  intros w o m m' t r E C. unfold complaint in C. apply run_eq in E as (r0 & E & R). rewrite E in C.
  assert (r = r0) as -> by (destruct r0; congruence). clear R. destruct r0 as [u|e| |n|]; cbn [status] in *; try (split; intros; congruence).
  apply PropsRun.inner_exit in E as (-> & os & k & I & S & X). split; [discriminate|]. intros _.
  destruct (PropsSched.C44_exit_code_1_exact _ _ _ _ _ S) as [[H _] _]. destruct (H eq_refl) as (t1 & i & t2 & Q & KX & N).
  split; [|exists os, t1, i, t2; auto]. pose proof (adjust_same o) as (_ & _ & _ & _ & _ & _ & _ & _ & _ & AX & _). congruence.
Qed.
Print Assumptions C100_no_error.

(** C100: nothing that failed is passed over: if the invocation succeeds, every single thing it
    did has succeeded. *)
Theorem C100_nothing_ignored :
  forall (w : world) (o : opts) (m m' : fs) (t : list act),
    run w o m = (m', t, ROk tt) -> Forall (succeeded w o) t.
Proof.
  intros w o m m' t E. apply run_eq in E as (r0 & E & R).
  assert (r0 = ROk tt) as -> by (destruct r0; try destruct (o_exit_code o); congruence).
  apply run_inv in E as [(b & _ & _ & _ & _ & K)|[(b & _ & _ & _ & _ & _ & K)|[_ E]]]; try discriminate K.
  assert (G : goes (succeeded w (adjust o)) (pbind (p_prepare w (adjust o)) (dispatch w (adjust o)))).
  { apply goes_bind; [apply prepare_goes|intros l; apply dispatch_goes]. }
  apply G in E. eapply Forall_impl; [exact E|]. intros a. apply succeeded_adjust.
Qed.
Print Assumptions C100_nothing_ignored.

(** Reports: a failed build (also with --exit-code), an executable whose listing is not text, no
    target of that name, a directory without data, a version that does not fit; then a session
    in which no fuzzer starts properly, one whose poll fails, and a success. *)
Example C100_example :
  let with_ listing eio self session :=
    let w := PropsRun4.ex_wide listing None in
    {| w_cargo := w_cargo w; w_parse := w_parse w; w_afl := w_afl w; w_terminal := false; w_build := w_build w;
       w_listing := fun _ => listing; w_self := self; w_show := w_show w; w_id := None; w_io := w_io w; w_width := None; w_clean := true;
       w_eio := eio; w_lcov := Some true; w_report := w_report w; w_gen := w_gen w; w_cpus := 4; w_checks := true;
       w_foreground := true; w_strip := fun b => b; w_session := session |} in
  let two := PropsRun4.ex_listing (lit "f") (lit "g") in
  let eio b := fun (_ : executable) (_ : str) =>
                 {| Entries.e_exists := b; Entries.e_list := Some []; Entries.e_open := fun _ => true; Entries.e_raw := fun _ => None;
                    Entries.e_proc := fun _ => Entries.PFail [] |} in
  let self := PropsRun.ex_self in
  let other := {| v_major := 9; v_minor := 0; v_patch := 0; v_pre := [] |} in
  let fuzz := PropsRun.ex_o None None false in
  let show := PropsRun.ex_o (Some Corpus_) None false in
  let idle ev := {| Sched.in_size := None; Sched.in_spawn := true; Sched.in_poll := ev |} in
  let died i := {| Sched.ev_token := i; Sched.ev_reads := []; Sched.ev_closed := true; Sched.ev_deregister := true; Sched.ev_wait := Some false |} in
  complaint PropsRun4.ex_broken fuzz ∅ = Some (lit "Error: Command failed") /\
  complaint PropsRun4.ex_broken (PropsRun.ex_o None None true) ∅ = Some (lit "Command failed") /\
  complaint (with_ [ascii_of_N 255] (eio true) self []) show ∅ = Some (lit "Error: Could not get output") /\
  complaint (with_ (lit "plain: test") (eio true) self []) show ∅ = Some (lit "Error: Found no fuzz targets") /\
  complaint (with_ two (eio false) self []) show ∅
    = Some (lit "Error: Could not find `" ++ lit "/t/corpus/k::f`. Did you remember to run `cargo test`?") /\
  complaint (with_ two (eio true) other []) show ∅
    = Some (lit "Error: `k` depends on `test-fuzz " ++ PropsRun.ex_show PropsRun.ex_self ++ lit "`, which is incompatible with `cargo-test-fuzz "
            ++ PropsRun.ex_show other ++ lit "`.") /\
  complaint (with_ two (eio true) self [idle None; idle None; idle (Some [died 0; died 1]); idle None]) fuzz ∅ = Some (lit "Error: All targets failed to start") /\
  complaint (with_ two (eio true) self [idle None; idle None; idle None]) fuzz ∅ = Some (lit "Error: `poll` failed") /\
  complaint (with_ two (eio true) self []) show ∅ = None.
Proof. intros. repeat split; vm_compute; reflexivity. Qed.
