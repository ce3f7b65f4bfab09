(** C68: dependency versions and the executables of a build. *)
From Coq Require Import String List Ascii Bool Arith NArith Lia.
From Verif Require Import Base Semver Meta.
Import ListNotations.

(** C68: for every dependency graph the reported versions are those of the first
    direct dependency called test-fuzz and of that package's first direct dependency
    called afl. *)
Theorem C68_versions_exact :
  forall (md : metadata) (id : str) (tv av : option version),
    test_fuzz_and_afl_versions md id = Ret (tv, av) <-> versions md id tv av.
Proof.
  intros md id tv av. pose proof (versions_spec md id) as H. split.
  - intros E. now rewrite E in H.
  - intros V. destruct (test_fuzz_and_afl_versions md id) as [[tv' av']|e|].
    + destruct (versions_unique _ _ _ _ _ _ V H) as [-> ->]. reflexivity.
    + exfalso. destruct V as (G & r & D & K). destruct H as [H|(t & D' & H)]; [exact (H G)|].
      rewrite (dependency_unique _ _ _ _ _ D D') in K. destruct K as [K _]. exact (H K).
    + destruct H.
Qed.
Print Assumptions C68_versions_exact.

(** C68: the lookup fails exactly if the graph is broken at the package or at its
    test-fuzz dependency, and never panics. *)
Theorem C68_error_exact :
  forall (md : metadata) (id : str),
    test_fuzz_and_afl_versions md id <> Panic /\
    ((exists e, test_fuzz_and_afl_versions md id = Err e) <->
     (~ graph_ok md id \/ exists t, dependency md id (lit "test-fuzz") (Some t) /\ ~ graph_ok md t)).
Proof.
  intros md id. pose proof (versions_spec md id) as H. split; [intros E; now rewrite E in H|]. split.
  - intros (e & E). now rewrite E in H.
  - intros B. destruct (test_fuzz_and_afl_versions md id) as [[tv av]|e|]; [exfalso|now exists e|destruct H].
    destruct H as (G & r & D & K). destruct B as [B|(t & D' & B)]; [exact (B G)|].
    rewrite (dependency_unique _ _ _ _ _ D D') in K. destruct K as [K _]. exact (B K).
Qed.
Print Assumptions C68_error_exact.

(** How the lookup of a package's dependencies fails: there is no dependency graph, the
    package is not in it, or a direct dependency, the first such, is no known package. *)
Inductive broken (md : metadata) (id : str) : str -> Prop :=
| no_graph : md_resolve md = None -> broken md id (lit "No dependency graph")
| no_node nodes : md_resolve md = Some nodes -> (forall n, In n nodes -> n_id n <> id) ->
    broken md id (lit "Could not find package `" ++ id ++ lit "`")
| no_package a d b : direct_deps md id (a ++ d :: b) -> (forall x, In x a -> exists p, is_package md x p) ->
    (forall p, ~ is_package md d p) -> broken md id (lit "Could not find package `" ++ d ++ lit "`").

Lemma find_package_err md d e : find_package md d = Err e -> e = lit "Could not find package `" ++ d ++ lit "`".
Proof. unfold find_package. destruct (find _ _); [discriminate|]. intros H. now inversion H. Qed.

Lemma package_dependency_err md id name e : package_dependency md id name = Err e <-> broken md id e.
Proof.
  unfold package_dependency. split.
  - destruct (md_resolve md) as [nodes|] eqn:R.
    2:{ intros H. inversion H. now constructor. }
    pose proof (find_first (fun n => str_eqb (n_id n) id) (fun n => n_id n = id) nodes) as F.
    destruct (find _ nodes) as [n|].
    2:{ intros H. inversion H. apply (no_node _ _ nodes R). apply F. intros x. apply str_eqb_eq. }
    specialize (F (fun x => str_eqb_eq (n_id x) id)).
    assert (DD : direct_deps md id (n_deps n)) by (exists nodes, n; auto).
    destruct (mapM _ _) as [l|e'|] eqn:M; cbn [bind]; [discriminate| |discriminate].
    intros H. assert (e' = e) by now inversion H. subst e'. clear H.
    assert (K : exists a d b, n_deps n = a ++ d :: b /\ (forall x, In x a -> exists p, is_package md x p) /\
                              (forall p, ~ is_package md d p) /\ e = lit "Could not find package `" ++ d ++ lit "`").
    { clear DD F. induction (n_deps n) as [|d ds IH]; cbn [mapM] in M; [discriminate|].
      unfold package_name at 1 in M. pose proof (find_package_spec md d) as S.
      destruct (find_package md d) as [p|e'|] eqn:P; cbn [bind] in M.
      - destruct (mapM _ ds) as [l|e'|]; cbn [bind] in M; try discriminate. assert (e' = e) by now inversion M. subst e'.
        destruct (IH eq_refl) as (a & d' & b & -> & A & N & ->). exists (d :: a), d', b. split; [reflexivity|].
        split; [intros x [<-|I]; [now exists p|now apply A]|auto].
      - assert (e' = e) by now inversion M. subst e'. exists [], d, ds. split; [reflexivity|]. split; [intros x []|].
        split; [exact S|]. exact (find_package_err md d e P).
      - destruct S. }
    destruct K as (a & d & b & E & A & N & ->). rewrite E in DD. exact (no_package _ _ a d b DD A N).
  - intros [R|nodes R N|a d b D A N].
    + now rewrite R.
    + rewrite R. pose proof (find_first (fun n => str_eqb (n_id n) id) (fun n => n_id n = id) nodes) as F.
      destruct (find _ nodes) as [n|]; [exfalso|reflexivity].
      specialize (F (fun x => str_eqb_eq (n_id x) id)). apply first_such_in in F as [I E]. exact (N n I E).
    + destruct D as (nodes & n & R & Fn & E). rewrite R.
      pose proof (find_first (fun n => str_eqb (n_id n) id) (fun n => n_id n = id) nodes) as F.
      destruct (find _ nodes) as [n'|].
      2:{ exfalso. apply first_such_in in Fn as [I Q]. refine (F _ n I Q). intros x. apply str_eqb_eq. }
      specialize (F (fun x => str_eqb_eq (n_id x) id)). rewrite (first_such_unique _ _ _ _ F Fn), <- E.
      assert (M : mapM (fun d => bind (package_name md d) (fun nm => Ret (d, nm))) (a ++ d :: b)
                  = Err (lit "Could not find package `" ++ d ++ lit "`")).
      { clear E R F Fn. induction a as [|x a IH].
        - cbn [List.app mapM]. unfold package_name at 1. pose proof (find_package_spec md d) as S.
          destruct (find_package md d) as [p|e'|] eqn:P; cbn [bind]; [destruct (N p S)|f_equal; exact (find_package_err md d e' P)|destruct S].
        - cbn [List.app mapM]. destruct (A x (or_introl eq_refl)) as [p Ip].
          assert (Q : package_name md x = Ret (p_name p)) by (apply package_name_spec; eauto).
          rewrite Q. cbn [bind]. rewrite IH; [reflexivity|]. intros y Y. apply A. now right. }
      rewrite M. reflexivity.
Qed.

(** C68: what the failed lookup says. *)
Theorem C68_error_text :
  forall (md : metadata) (id e : str),
    test_fuzz_and_afl_versions md id = Err e <->
    broken md id e \/
    (graph_ok md id /\ exists t, dependency md id (lit "test-fuzz") (Some t) /\ broken md t e).
Proof.
  intros md id e. unfold test_fuzz_and_afl_versions. split.
  - intros E. pose proof (package_dependency_spec md id (lit "test-fuzz")) as S.
    destruct (package_dependency md id (lit "test-fuzz")) as [[t|]|e'|] eqn:P; cbn [bind map_transpose] in E; try discriminate.
    + destruct S as [G D]. right. split; [exact G|]. exists t. split; [exact D|].
      pose proof (package_dependency_spec md t (lit "afl")) as S'.
      destruct (package_dependency md t (lit "afl")) as [a|e'|] eqn:P'; cbn [bind] in E; [exfalso| |discriminate].
      * destruct (dependency_package _ _ _ _ D) as [p Ip].
        assert (Ev : package_version md t = Ret (p_version p)) by (apply package_version_spec; eauto).
        rewrite Ev in E. cbn [bind] in E. destruct a as [a|]; cbn [bind map_transpose] in E; [|discriminate].
        destruct S' as [_ Da]. destruct (dependency_package _ _ _ _ Da) as [q Iq].
        assert (Ew : package_version md a = Ret (p_version q)) by (apply package_version_spec; eauto).
        rewrite Ew in E. discriminate.
      * assert (e' = e) by now inversion E. subst e'. now apply (package_dependency_err md t (lit "afl")).
    + assert (e' = e) by now inversion E. subst e'. left. now apply (package_dependency_err md id (lit "test-fuzz")).
  - intros [B|(G & t & D & B)].
    + apply (package_dependency_err md id (lit "test-fuzz")) in B. rewrite B. reflexivity.
    + pose proof (package_dependency_spec md id (lit "test-fuzz")) as S.
      destruct (package_dependency md id (lit "test-fuzz")) as [r|e'|]; [|destruct (S G)|destruct S].
      destruct S as [_ D']. rewrite <- (dependency_unique _ _ _ _ _ D D'). cbn [bind map_transpose].
      apply (package_dependency_err md t (lit "afl")) in B. rewrite B. reflexivity.
Qed.
Print Assumptions C68_error_text.

(** C68: the executables are exactly the executables of test artifacts, in order. *)
Theorem C68_executables_exact :
  forall (md : metadata) (ms : list message) (l : list executable),
    executables md ms = Ret l <->
    Forall2 (fun m x => exists id, m = Artifact id (ex_name x) true (Some (ex_path x)) /\
                                   versions md id (ex_test_fuzz x) (ex_afl x))
            (filter (fun m => match m with Artifact _ _ true (Some _) => true | _ => false end) ms) l.
Proof.
  intros md ms. induction ms as [|m ms IH]; intros l; cbn [executables filter].
  - split; [intros [= <-]; constructor|intros H; now inversion H].
  - destruct m as [id name [|] [exe|]|text|]; try apply IH. split.
    + intros E. destruct (test_fuzz_and_afl_versions md id) as [[tv av]|e|] eqn:V; cbn [bind] in E; try discriminate.
      destruct (executables md ms) as [l'|e|]; cbn [bind] in E; try discriminate. injection E as <-.
      constructor; [exists id; split; [reflexivity|]; now apply C68_versions_exact|now apply IH].
    + intros H. inversion H as [|m0 x ms0 l0 (id' & Em & V) R]; subst. injection Em as -> -> ->.
      apply C68_versions_exact in V. rewrite V. cbn [bind]. apply IH in R. rewrite R. cbn [bind fst snd].
      now destruct x.
Qed.
Print Assumptions C68_executables_exact.

Definition ex_v (a b c : N) : version := mkversion a b c [].
Definition ex_md : metadata := {|
  md_packages := [{| p_id := lit "a 1"; p_name := lit "a"; p_version := ex_v 1 0 0 |};
                  {| p_id := lit "tf 7"; p_name := lit "test-fuzz"; p_version := ex_v 7 2 1 |};
                  {| p_id := lit "afl 15"; p_name := lit "afl"; p_version := ex_v 0 15 0 |};
                  {| p_id := lit "afl 14"; p_name := lit "afl"; p_version := ex_v 0 14 0 |}];
  md_resolve := Some [{| n_id := lit "a 1"; n_deps := [lit "afl 14"; lit "tf 7"] |};
                      {| n_id := lit "tf 7"; n_deps := [lit "afl 15"] |};
                      {| n_id := lit "b 1"; n_deps := [lit "gone 1"] |};
                      {| n_id := lit "afl 14"; n_deps := [] |}] |}.

Example C68_example :
  test_fuzz_and_afl_versions ex_md (lit "a 1") = Ret (Some (ex_v 7 2 1), Some (ex_v 0 15 0)) /\
  test_fuzz_and_afl_versions ex_md (lit "afl 14") = Ret (None, None) /\
  test_fuzz_and_afl_versions ex_md (lit "b 1") = Err (lit "Could not find package `gone 1`") /\
  test_fuzz_and_afl_versions ex_md (lit "c 1") = Err (lit "Could not find package `c 1`") /\
  test_fuzz_and_afl_versions {| md_packages := []; md_resolve := None |} (lit "a 1") = Err (lit "No dependency graph") /\
  executables ex_md [OtherMessage; Artifact (lit "a 1") (lit "a") false (Some (lit "/x"));
                     Artifact (lit "a 1") (lit "it") true (Some (lit "/y")); Artifact (lit "a 1") (lit "l") true None]
  = Ret [{| ex_path := lit "/y"; ex_name := lit "it"; ex_test_fuzz := Some (ex_v 7 2 1); ex_afl := Some (ex_v 0 15 0) |}].
Proof. repeat split; vm_compute; reflexivity. Qed.
