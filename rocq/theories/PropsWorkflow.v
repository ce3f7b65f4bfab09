(** Theorems about the workflow that runs the tests (C133). *)
From Coq Require Import Ascii String List Bool Arith NArith Lia.
From Verif Require Import Base Workflow.
Import ListNotations.

(** The workflow succeeds exactly if the tests are not run, or all runs are without failures and have
    not been cancelled; they are not run if the first job says that nothing has changed, and if it
    fails. *)
Theorem C133_succeeds :
  forall (check : result) (up_to_date : str) (runs : list result),
    ci check up_to_date runs = Success <->
    check <> Success \/ up_to_date = lit "true" \/ (forall r, In r runs -> r <> Failure /\ r <> Cancelled).
Proof.
  intros check u runs.
  assert (A : forall r, all_checks [r] = Success <-> r <> Failure /\ r <> Cancelled).
  { intros r. destruct r; vm_compute; split; intros H; try (split; discriminate); try reflexivity; try discriminate H; now destruct H. }
  assert (F : forall x, (x = Failure \/ x = Cancelled \/ x = Success \/ x = Skipped)) by (intros []; auto).
  assert (R : of_runs runs <> Failure /\ of_runs runs <> Cancelled <-> forall r, In r runs -> r <> Failure /\ r <> Cancelled).
  { unfold of_runs. destruct (existsb (fun r => match r with Failure => true | _ => false end) runs) eqn:E1.
    - split; [intros (K & _); now destruct K|]. intros H. apply existsb_exists in E1 as (r & I & K). destruct (H r I) as (H1 & _). now destruct r.
    - destruct (existsb (fun r => match r with Cancelled => true | _ => false end) runs) eqn:E2.
      + split; [intros (_ & K); now destruct K|]. intros H. apply existsb_exists in E2 as (r & I & K). destruct (H r I) as (_ & H1). now destruct r.
      + split; [|intros _; split; discriminate]. intros _ r I. split; intros ->.
        * assert (X : existsb (fun r => match r with Failure => true | _ => false end) runs = true) by (apply existsb_exists; now exists Failure). congruence.
        * assert (X : existsb (fun r => match r with Cancelled => true | _ => false end) runs = true) by (apply existsb_exists; now exists Cancelled). congruence. }
  unfold ci. rewrite A. unfold test_job. destruct check.
  - destruct (str_eqb u (lit "true")) eqn:E.
    + apply str_eqb_eq in E. split; [auto|]. intros _. split; discriminate.
    + apply str_eqb_neq in E. rewrite R. split; [auto|]. intros [H|[H|H]]; [now destruct H|contradiction|exact H].
  - split; [left; discriminate|intros _; split; discriminate].
  - split; [left; discriminate|intros _; split; discriminate].
  - split; [left; discriminate|intros _; split; discriminate].
Qed.
Print Assumptions C133_succeeds.

(** The result of the job with the tests. *)
Theorem C133_test_job :
  forall (check : result) (up_to_date : str) (runs : list result),
    (test_job check up_to_date runs = Skipped <-> check <> Success \/ up_to_date = lit "true") /\
    (check = Success -> up_to_date <> lit "true" ->
       (test_job check up_to_date runs = Failure <-> In Failure runs) /\
       (test_job check up_to_date runs = Cancelled <-> In Cancelled runs /\ ~ In Failure runs)).
Proof.
  intros check u runs.
  assert (F : existsb (fun r => match r with Failure => true | _ => false end) runs = true <-> In Failure runs).
  { rewrite existsb_exists. split; [intros (r & I & K); now destruct r|intros I; now exists Failure]. }
  assert (C : existsb (fun r => match r with Cancelled => true | _ => false end) runs = true <-> In Cancelled runs).
  { rewrite existsb_exists. split; [intros (r & I & K); now destruct r|intros I; now exists Cancelled]. }
  split.
  - unfold test_job, of_runs. destruct check; try (split; [left; discriminate|reflexivity]). destruct (str_eqb u (lit "true")) eqn:E.
    + apply str_eqb_eq in E. split; auto.
    + apply str_eqb_neq in E. split; [|intros [K|K]; [now destruct K|contradiction]]. destruct (existsb _ runs); [discriminate|]. destruct (existsb _ runs); discriminate.
  - intros -> N. unfold test_job. apply str_eqb_neq in N. rewrite N. unfold of_runs. rewrite <- F, <- C.
    destruct (existsb (fun r => match r with Failure => true | _ => false end) runs), (existsb (fun r => match r with Cancelled => true | _ => false end) runs);
      split; split; intros H; try discriminate H; try reflexivity; try (split; [reflexivity|discriminate]); destruct H as (H1 & H2); try discriminate H1; now destruct H2.
Qed.
Print Assumptions C133_test_job.

(** So it is not the case that it succeeds only if the tests have succeeded or nothing has changed. *)
Theorem C133_tested_refuted :
  exists check up_to_date runs,
    ci check up_to_date runs = Success /\ up_to_date <> lit "true" /\ test_job check up_to_date runs <> Success /\ forall r, In r runs -> r = Failure.
Proof. exists Failure, [], [Failure]. split; [reflexivity|]. split; [discriminate|]. split; [discriminate|]. intros r [<-|[]]. reflexivity. Qed.
Print Assumptions C133_tested_refuted.

(** Otherwise it fails; nothing else comes out of it. *)
Theorem C133_fails :
  forall (check : result) (up_to_date : str) (runs : list result),
    (ci check up_to_date runs = Success \/ ci check up_to_date runs = Failure) /\
    (ci check up_to_date runs = Failure <-> check = Success /\ up_to_date <> lit "true" /\ (In Failure runs \/ In Cancelled runs)).
Proof.
  intros check u runs.
  assert (D : ci check u runs = Success \/ ci check u runs = Failure) by (unfold ci, all_checks; cbv zeta; match goal with |- context [if ?b then _ else _] => destruct b end; auto).
  split; [exact D|]. pose proof (C133_succeeds check u runs) as S. split.
  - intros F. assert (N : ci check u runs <> Success) by (rewrite F; discriminate). split; [|split].
    + destruct check; try reflexivity; exfalso; apply N, S; left; discriminate.
    + intros ->. apply N, S. right. now left.
    + assert (X : forall x : result, In x runs \/ ~ In x runs) by (intros x; assert (Q : {In x runs} + {~ In x runs}) by (apply in_dec; decide equality); destruct Q; auto).
      destruct (X Failure) as [I|I]; [now left|]. destruct (X Cancelled) as [J|J]; [now right|]. exfalso. apply N, S. right. right. intros r K. split; intros ->; contradiction.
  - intros (C & U & I). destruct D as [D|D]; [|exact D]. exfalso. apply S in D as [D|[D|D]]; [now apply D|now apply U|].
    destruct I as [I|I]; destruct (D _ I) as (A & B); now (apply A || apply B).
Qed.
Print Assumptions C133_fails.

(** The runs are all combinations, each of them once. *)
Theorem C133_matrix :
  (forall r, In r matrix) /\ List.length matrix = 16 /\ NoDup matrix.
Proof.
  split; [|split].
  - intros [[] [] [] []]; vm_compute; tauto.
  - reflexivity.
  - vm_compute. repeat constructor; cbn; intuition discriminate.
Qed.
Print Assumptions C133_matrix.

Lemma has_word_spec w s : forall inside, has_word w inside s = true <->
  exists a b, s = a ++ w ++ b /\ (a = [] -> inside = false) /\ (forall t c, a = t ++ [c] -> word_char c = false) /\ (forall t c, b = c :: t -> word_char c = false).
Proof.
  assert (B : forall b, negb (starts_word b) = true <-> forall t c, b = c :: t -> word_char c = false).
  { intros [|c b]; cbn; split; intros H; try reflexivity; try discriminate; [intros t x E; injection E as -> _; now apply negb_true_iff|apply negb_true_iff; eauto]. }
  induction s as [|c s IH]; intros inside; cbn [has_word]; rewrite orb_true_iff.
  - split.
    + intros [H|H]; [|discriminate]. apply andb_true_iff in H as (H1 & H2). destruct (strip_prefix w []) as [r|] eqn:S; [|discriminate]. apply strip_prefix_spec in S.
      exists [], r. split; [exact S|]. split; [intros _; now apply negb_true_iff|]. split; [intros t c E; now destruct t|now apply B].
    + intros (a & b & E & I & A & W). left. destruct a; [|discriminate E]. cbn [app] in E. replace (strip_prefix w []) with (Some b) by (symmetry; now apply strip_prefix_spec).
      rewrite I by reflexivity. now apply B.
  - rewrite IH. split.
    + intros [H|(a & b & -> & I & A & W)].
      * apply andb_true_iff in H as (H1 & H2). destruct (strip_prefix w (c :: s)) as [r|] eqn:S; [|discriminate]. apply strip_prefix_spec in S.
        exists [], r. split; [exact S|]. split; [intros _; now apply negb_true_iff|]. split; [intros t x E; now destruct t|now apply B].
      * exists (c :: a), b. split; [reflexivity|]. split; [discriminate|]. split; [|exact W]. intros t x E. destruct t as [|y t].
        -- cbn [app] in E. injection E as <- E. now apply I.
        -- cbn [app] in E. injection E as _ E. now apply (A t).
    + intros (a & b & E & I & A & W). destruct a as [|x a].
      * left. cbn [app] in E. replace (strip_prefix w (c :: s)) with (Some b) by (symmetry; now apply strip_prefix_spec). rewrite I by reflexivity. now apply B.
      * right. cbn [app] in E. injection E as <- ->. exists a, b. split; [reflexivity|]. split; [intros ->; now apply (A [])|]. split; [|exact W]. intros t y ->. now apply (A (c :: t)).
Qed.

Lemma has_word_occurs w s : has_word w false s = true <-> occurs w s.
Proof.
  rewrite has_word_spec. split.
  - intros (a & b & E & _ & A & W). exists a, b. auto.
  - intros (a & b & E & A & W). exists a, b. auto.
Qed.

(** The third-party tests are run in full exactly if the run is for them and is scheduled, or for a
    pull request for which git can tell the changed files and one has one of the two words in its
    name. *)
Theorem C133_full :
  forall (diff : str -> option (list str)) (e : event) (r : run),
    In (lit "--features=third-party/test-full") (test_words diff e r) <->
    r_third_party r = true /\
    (e = Schedule \/
     exists base files f, e = PullRequest base /\ diff base = Some files /\ In f files /\ (occurs (lit "patches") f \/ occurs (lit "third_party") f)).
Proof.
  intros diff e r.
  assert (F : full diff e = true <-> e = Schedule \/ exists base files f, e = PullRequest base /\ diff base = Some files /\ In f files /\ (occurs (lit "patches") f \/ occurs (lit "third_party") f)).
  { unfold full. destruct e as [|base| |]; cbn [changed].
    - split; [discriminate|]. intros [K|(? & ? & ? & K & _)]; discriminate K.
    - cbn [orb]. unfold greps. destruct (diff base) as [files|] eqn:D.
      + rewrite existsb_exists. split.
        * intros (f & I & H). right. exists base, files, f. rewrite orb_true_iff, !has_word_occurs in H. auto.
        * intros [K|(base' & files' & f & K & D' & I & H)]; [discriminate K|]. injection K as <-. rewrite D in D'. injection D' as <-. exists f. rewrite orb_true_iff, !has_word_occurs. auto.
      + cbn. split; [discriminate|]. intros [K|(base' & files' & f & K & D' & _)]; [discriminate K|]. injection K as <-. congruence.
    - split; [auto|reflexivity].
    - split; [discriminate|]. intros [K|(? & ? & ? & K & _)]; discriminate K. }
  rewrite <- F. unfold test_words, selection, serde_feature.
  destruct r as [[] [] [] s]; cbn [r_third_party r_bincode r_nightly]; destruct (full diff e); (split; [intros I|intros (K1 & K2)]); try discriminate K1; try discriminate K2; try (split; reflexivity);
    try (vm_compute in I; repeat destruct I as [I|I]; try discriminate I; try contradiction); vm_compute; tauto.
Qed.
Print Assumptions C133_full.

(** In particular not in a merge queue, whatever has changed; and a file whose name only has one of
    the words as a part of a longer one does not count. *)
Theorem C133_queue_refuted :
  exists diff r, r_third_party r = true /\ (forall base, diff base = Some [lit "third-party/patches/a.patch"]) /\
    In (lit "--features=third-party/test-full") (test_words diff (PullRequest (lit "1f")) r) /\
    ~ In (lit "--features=third-party/test-full") (test_words diff MergeGroup r) /\
    ~ In (lit "--features=third-party/test-full") (test_words (fun _ => Some [lit "scripts/update_patches.sh"]) (PullRequest (lit "1f")) r).
Proof.
  exists (fun _ => Some [lit "third-party/patches/a.patch"]), {| r_third_party := true; r_bincode := false; r_nightly := false; r_sha1 := false |}.
  split; [reflexivity|]. split; [reflexivity|]. split; [vm_compute; tauto|]. split; vm_compute; intuition discriminate.
Qed.
Print Assumptions C133_queue_refuted.

(** What is built and what is tested is selected alike, and both with the format of the run and no
    other; of two runs that differ in the format, the commands differ in nothing else. *)
Theorem C133_format :
  forall (diff : str -> option (list str)) (e : event) (r : run),
    let format := lit "test-fuzz/serde_" ++ (if r_bincode r then lit "bincode" else lit "postcard") in
    given (lit "--features") (build_words diff e r) = [format] /\ given (lit "--features") (test_words diff e r) = [format] /\
    (forall x, In x (selection diff e r) -> In x (build_words diff e r) /\ In x (test_words diff e r)) /\
    (forall b, exists before after, test_words diff e {| r_third_party := r_third_party r; r_bincode := b; r_nightly := r_nightly r; r_sha1 := r_sha1 r |}
       = before ++ [lit "test-fuzz/serde_" ++ (if b then lit "bincode" else lit "postcard")] ++ after /\
       test_words diff e r = before ++ [format] ++ after).
Proof.
  intros diff e r format. split; [|split; [|split]].
  - subst format. unfold build_words, selection, serde_feature. destruct r as [[] [] n s]; cbn [r_third_party r_bincode]; destruct (full diff e); vm_compute; reflexivity.
  - subst format. unfold test_words, selection, serde_feature. destruct r as [[] [] [] s]; cbn [r_third_party r_bincode r_nightly]; destruct (full diff e); vm_compute; reflexivity.
  - intros x I. unfold build_words, test_words. split; rewrite !in_app_iff; auto.
  - intros b. exists (words ["cargo"%string; "test"%string] ++ selection diff e r ++ [lit "--features"]).
    eexists. split.
    + unfold test_words. unfold selection. cbn [r_third_party r_nightly]. unfold serde_feature. cbn [r_bincode]. rewrite <- !app_assoc. reflexivity.
    + unfold test_words, serde_feature. rewrite <- !app_assoc. reflexivity.
Qed.
Print Assumptions C133_format.

(** With nightly toolchains, and only with them, tests of documentation are left out, and the tests are
    run one at a time and in random order; always through the runner that is named. *)
Theorem C133_nightly :
  forall (diff : str -> option (list str)) (e : event) (r : run),
    (forall w, In w (words ["--bins"; "--lib"; "--tests"; "-Z"; "unstable-options"; "--report-time"; "--shuffle"; "--test-threads=1"]%string) ->
       In w (test_words diff e r) <-> r_nightly r = true) /\
    given (lit "--config") (test_words diff e r) = [lit "target.'cfg(all())'.runner='group-runner'"] /\
    exists before after, test_words diff e r = before ++ [lit "--"] ++ after /\ ~ In (lit "--") before /\
      (r_nightly r = false -> after = []) /\ (r_nightly r = true -> given (lit "-Z") after = [lit "unstable-options"] /\ List.length after = 5).
Proof.
  intros diff e r. split; [|split].
  - intros w I. unfold test_words, selection, serde_feature. destruct r as [[] [] [] s]; cbn [r_third_party r_bincode r_nightly]; destruct (full diff e);
      cbn [words map In] in I; repeat (destruct I as [<-|I]; [vm_compute; intuition discriminate|]); destruct I.
  - unfold test_words, selection, serde_feature. destruct r as [[] [] [] s]; cbn [r_third_party r_bincode r_nightly]; destruct (full diff e); vm_compute; reflexivity.
  - exists (words ["cargo"; "test"]%string ++ selection diff e r ++ [lit "--features"; serde_feature r] ++
      (if r_nightly r then words ["--bins"; "--lib"; "--tests"]%string else []) ++ [lit "--config"; lit "target.'cfg(all())'.runner='group-runner'"]).
    exists (if r_nightly r then words ["-Z"; "unstable-options"; "--report-time"; "--shuffle"; "--test-threads=1"]%string else []).
    split; [unfold test_words; rewrite <- !app_assoc; reflexivity|]. split.
    + unfold selection, serde_feature. destruct r as [[] [] [] s]; cbn [r_third_party r_bincode r_nightly]; destruct (full diff e); vm_compute; intuition discriminate.
    + destruct (r_nightly r); split; intros K; try discriminate K; try reflexivity. split; reflexivity.
Qed.
Print Assumptions C133_nightly.

(** The check of the names of files fails exactly if it is made and one begins with "id:"; so it does
    not fail if there is no such directory. *)
Theorem C133_names :
  forall (r : run) (names : option (list str)),
    check_fails r names = true <-> r_sha1 r = true /\ exists l n rest, names = Some l /\ In n l /\ n = lit "id:" ++ rest.
Proof.
  intros r names. unfold check_fails. rewrite andb_true_iff. destruct names as [l|].
  - rewrite existsb_exists. split.
    + intros (S & n & I & H). split; [exact S|]. destruct (strip_prefix (lit "id:") n) as [t|] eqn:E; [|unfold strip_prefix in E; rewrite H in E; discriminate].
      apply strip_prefix_spec in E. exists l, n, t. auto.
    + intros (S & l' & n & t & L & I & E). injection L as <-. split; [exact S|]. exists n. split; [exact I|].
      apply strip_prefix_spec in E. unfold strip_prefix in E. destruct (starts_with (lit "id:") n); [reflexivity|discriminate].
  - split; [intros (_ & K); discriminate K|]. intros (_ & l & n & t & K & _). discriminate K.
Qed.
Print Assumptions C133_names.

(** A scheduled run, a pull request, a run that fails; a failure of the first job. *)
Example C133_example :
  let r := {| r_third_party := true; r_bincode := true; r_nightly := false; r_sha1 := true |} in
  build_words (fun _ => None) Schedule r
    = words ["cargo"; "build"; "--package"; "third-party"; "--features=third-party/test-full"; "--features"; "test-fuzz/serde_bincode"; "--all-targets"]%string /\
  greps [lit "third-party/tests/third_party.rs"] = true /\ greps [lit "scripts/update_patches.sh"; lit "third-party/src/lib.rs"] = false /\
  ci Success (lit "false") [Success; Failure; Success] = Failure /\ ci Success (lit "false") [Success; Cancelled] = Failure /\
  ci Success (lit "false") [Success; Success] = Success /\ ci Failure [] [Success; Failure] = Success /\
  check_fails r (Some [lit "corpus"; lit "id:000"]) = true.
Proof. vm_compute. repeat split. Qed.
