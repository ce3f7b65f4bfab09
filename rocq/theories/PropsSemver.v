(** Theorems about the version check (C40, C41). *)
From Coq Require Import Ascii String List Bool NArith Lia.
From Verif Require Import Base Semver.
Import ListNotations.
Local Open Scope N_scope.

(** C40: for releases, acceptance is semver compatibility, whichever is newer. *)
Theorem C40_release_exact :
  forall name dep d bin b, release d -> release b ->
    (accepted (check_dependency_version name dep (Some d) bin b) <-> compatible d b).
Proof.
  intros name dep d bin b Rd Rb. rewrite accepted_cases, !req_matches_spec.
  rewrite (compatible_sym b d). split.
  - intros H. destruct (H Rb) as [H'|H']; apply H'.
  - intros C _. destruct (release_total d b Rd Rb); [right|left]; auto.
Qed.
Print Assumptions C40_release_exact.

(** C40: symmetric in the two versions. *)
Theorem C40_symmetric :
  forall name dep d bin b, release d -> release b ->
    (accepted (check_dependency_version name dep (Some d) bin b) <->
     accepted (check_dependency_version name dep (Some b) bin d)).
Proof.
  intros. rewrite !C40_release_exact by assumption. apply compatible_sym.
Qed.
Print Assumptions C40_symmetric.

(** C40: a missing dependency is always an error that names it. *)
Theorem C40_missing :
  forall name dep bin b,
    check_dependency_version name dep None bin b = ([], Some (Missing name dep)).
Proof. reflexivity. Qed.
Print Assumptions C40_missing.

(** C40: a prerelease tool is never rejected. *)
Theorem C40_prerelease_tool :
  forall name dep d bin b, ~ release b ->
    accepted (check_dependency_version name dep (Some d) bin b).
Proof. intros. rewrite accepted_cases. tauto. Qed.
Print Assumptions C40_prerelease_tool.

(** C40: a prerelease dependency needs a release tool that is compatible and not older. *)
Theorem C40_prerelease_dependency :
  forall name dep d bin b, ~ release d -> release b ->
    (accepted (check_dependency_version name dep (Some d) bin b) <-> compatible d b /\ ~ older b d).
Proof.
  intros name dep d bin b Rd Rb. rewrite accepted_cases, !req_matches_spec. split.
  - intros H. destruct (H Rb) as [H'|(_ & _ & [H'|[_ H']])]; [tauto|contradiction|]. now destruct H'.
  - intros [C O] _. left. auto.
Qed.
Print Assumptions C40_prerelease_dependency.

(** C40: the whole check passes iff every executable passes both of its checks. *)
Theorem C40_all_executables :
  forall ctf cafl xs,
    accepted (check_versions ctf cafl xs) <->
    forall x, In x xs ->
      (exists d, x_test_fuzz x = Some d /\
                 accepted (check_dependency_version (x_name x) (lit "test-fuzz") (Some d) (lit "cargo-test-fuzz") ctf)) /\
      (exists d, x_afl x = Some d /\
                 accepted (check_dependency_version (x_name x) (lit "afl") (Some d) (lit "cargo-afl") cafl)).
Proof.
  intros. rewrite check_versions_ok. split; intros H x I; destruct (H x I) as [A B].
  - destruct (x_test_fuzz x) as [d|]; [|discriminate A]. destruct (x_afl x) as [d'|]; [|discriminate B].
    split; [exists d|exists d']; auto.
  - destruct A as (d & -> & A), B as (d' & -> & B). auto.
Qed.
Print Assumptions C40_all_executables.

(** C40: the reported error is that of the first failing executable. *)
Theorem C40_first_error :
  forall ctf cafl xs e,
    snd (check_versions ctf cafl xs) = Some e ->
    exists ys x zs, xs = ys ++ x :: zs /\
      (forall y, In y ys -> accepted (check_versions ctf cafl [y])) /\
      (snd (check_dependency_version (x_name x) (lit "test-fuzz") (x_test_fuzz x) (lit "cargo-test-fuzz") ctf) = Some e \/
       (accepted (check_dependency_version (x_name x) (lit "test-fuzz") (x_test_fuzz x) (lit "cargo-test-fuzz") ctf) /\
        snd (check_dependency_version (x_name x) (lit "afl") (x_afl x) (lit "cargo-afl") cafl) = Some e)).
Proof. exact check_versions_first. Qed.
Print Assumptions C40_first_error.

Definition ver a b c := mkversion a b c [].
Definition verp a b c p := mkversion a b c p.

Example C40_example :
  accepted (check_dependency_version (lit "e") (lit "test-fuzz") (Some (ver 7 2 5)) (lit "t") (ver 7 0 1)) /\
  ~ accepted (check_dependency_version (lit "e") (lit "test-fuzz") (Some (ver 6 9 9)) (lit "t") (ver 7 0 1)) /\
  accepted (check_dependency_version (lit "e") (lit "afl") (Some (ver 0 15 24)) (lit "t") (ver 0 15 3)) /\
  ~ accepted (check_dependency_version (lit "e") (lit "afl") (Some (ver 0 15 24)) (lit "t") (ver 0 16 0)) /\
  ~ accepted (check_dependency_version (lit "e") (lit "afl") (Some (ver 0 0 2)) (lit "t") (ver 0 0 3)) /\
  accepted (check_dependency_version (lit "e") (lit "afl") (Some (verp 7 0 1 [Alpha (lit "alpha"); Num 2])) (lit "t") (ver 7 0 1)) /\
  snd (check_versions (ver 7 0 1) (ver 0 15 0)
         [mkvexe (lit "a") (Some (ver 7 0 0)) (Some (ver 0 15 9)); mkvexe (lit "b") (Some (ver 7 0 0)) None])
  = Some (Missing (lit "b") (lit "afl")).
Proof. repeat split; try reflexivity; intros H; discriminate H. Qed.

(** C41: for accepted releases the hint is printed exactly when the dependency is newer. *)
Theorem C41_hint_exact :
  forall name dep d bin b, release d -> release b ->
    let r := check_dependency_version name dep (Some d) bin b in
    accepted r -> (hinted r <-> older b d).
Proof.
  intros name dep d bin b Rd Rb r A. unfold r in *. rewrite hinted_cases by exact A.
  apply (C40_release_exact name dep d bin b Rd Rb) in A.
  rewrite <- not_true_iff_false, req_matches_spec. split.
  - intros H. destruct (N.lt_trichotomy (v_major b) (v_major d)) as [H1|[H1|H1]];
    destruct (N.lt_trichotomy (v_minor b) (v_minor d)) as [H2|[H2|H2]];
    destruct (N.lt_trichotomy (v_patch b) (v_patch d)) as [H3|[H3|H3]];
    first [left; unfold core_lt; lia
          |exfalso; apply H; split; [exact A|]; split; [|left; exact Rb];
           intros [K|(_ & K & _)]; [unfold core_lt in K; lia|exact (K Rb)]].
  - tauto.
Qed.
Print Assumptions C41_hint_exact.

(** C41: the hint, when printed, carries the right names and versions, and is printed at most once per check. *)
Theorem C41_hint_text :
  forall name dep d bin b,
    let r := check_dependency_version name dep (Some d) bin b in
    hinted r -> fst r = [Newer name dep d bin b] /\ accepted r.
Proof.
  intros name dep d bin b r. unfold r, hinted, accepted, check_dependency_version.
  destruct (_ && _); cbn; [congruence|]. destruct (req_matches d b); cbn; [congruence|]. auto.
Qed.
Print Assumptions C41_hint_text.

(** C41: what is printed, over all executables: the hints of every check, in order, up to the
    first check that fails. *)
Theorem C41_all_hints :
  forall ctf cafl xs,
    let checks := List.concat (map (fun x => [check_dependency_version (x_name x) (lit "test-fuzz") (x_test_fuzz x) (lit "cargo-test-fuzz") ctf;
                                              check_dependency_version (x_name x) (lit "afl") (x_afl x) (lit "cargo-afl") cafl]) xs) in
    ((forall c, In c checks -> snd c = None) /\ check_versions ctf cafl xs = (List.concat (map fst checks), None)) \/
    (exists a c b e, checks = a ++ c :: b /\ (forall x, In x a -> snd x = None) /\ snd c = Some e /\
                     check_versions ctf cafl xs = (List.concat (map fst (a ++ [c])), Some e)).
Proof.
  intros ctf cafl. induction xs as [|x xs IH]; [left; split; [intros c []|reflexivity]|]. cbn zeta in *. cbn [map List.concat check_versions].
  destruct (check_dependency_version (x_name x) (lit "test-fuzz") _ _ _) as [m1 [e|]].
  { right. eexists [], (m1, Some e), _, e. split; [reflexivity|]. split; [intros y []|]. cbn. now rewrite app_nil_r. }
  destruct (check_dependency_version (x_name x) (lit "afl") _ _ _) as [m2 [e|]].
  { right. eexists [(m1, None)], (m2, Some e), _, e. split; [reflexivity|]. split; [intros y [<-|[]]; reflexivity|]. cbn. now rewrite app_nil_r. }
  destruct IH as [[A ->]|(a & c & b & e & -> & A & E & ->)].
  - left. split; [|reflexivity]. intros c [<-|[<-|I]]; [reflexivity..|auto].
  - right. exists ((m1, None) :: (m2, None) :: a), c, b, e. split; [reflexivity|]. split; [intros y [<-|[<-|I]]; [reflexivity..|auto]|]. split; [exact E|reflexivity].
Qed.
Print Assumptions C41_all_hints.

(** C41: for a prerelease tool, exactly when the hint is printed. *)
Theorem C41_prerelease_tool :
  forall name dep d bin b, ~ release b ->
    (hinted (check_dependency_version name dep (Some d) bin b) <->
     ~ (core_eq d b /\ ~ release d /\ ~ older b d)).
Proof.
  intros name dep d bin b Rb. rewrite hinted_cases by (now apply C40_prerelease_tool).
  rewrite <- not_true_iff_false, req_matches_spec. unfold release in *. split; intros H K; apply H.
  - destruct K as (C & Rd & O). split; [|tauto].
    destruct C as (C1 & C2 & C3). unfold compatible. lia.
  - tauto.
Qed.
Print Assumptions C41_prerelease_tool.

(** C41: so a prerelease tool may claim "newer" of an older dependency. *)
Theorem C41_hint_means_newer_refuted :
  exists name dep d bin b,
    let r := check_dependency_version name dep (Some d) bin b in
    accepted r /\ fst r = [Newer name dep d bin b] /\ older d b /\ ~ older b d.
Proof.
  exists (lit "e"), (lit "test-fuzz"), (ver 8 1 0), (lit "cargo-test-fuzz"),
    (verp 8 2 0 [Alpha (lit "alpha"); Num 1]).
  cbn zeta. assert (O : older (ver 8 1 0) (verp 8 2 0 [Alpha (lit "alpha"); Num 1])).
  { left. right. cbn. split; [reflexivity|]. left. reflexivity. }
  repeat split; [exact O|]. now apply older_asym.
Qed.
Print Assumptions C41_hint_means_newer_refuted.

Example C41_example :
  hinted (check_dependency_version (lit "e") (lit "d") (Some (ver 7 2 5)) (lit "t") (ver 7 2 1)) /\
  ~ hinted (check_dependency_version (lit "e") (lit "d") (Some (ver 7 2 1)) (lit "t") (ver 7 2 5)) /\
  ~ hinted (check_dependency_version (lit "e") (lit "d") (Some (verp 7 2 1 [Alpha (lit "rc"); Num 1])) (lit "t") (verp 7 2 1 [Alpha (lit "rc"); Num 10])) /\
  hinted (check_dependency_version (lit "e") (lit "d") (Some (verp 7 2 1 [Alpha (lit "rc"); Num 10])) (lit "t") (verp 7 2 1 [Alpha (lit "rc"); Num 2])).
Proof. repeat split; cbn; try discriminate; intros H; now apply H. Qed.
