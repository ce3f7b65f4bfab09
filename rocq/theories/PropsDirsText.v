(** Property C103: namespaces whose names contain slashes. *)
From Coq Require Import List Ascii String Bool.
From stdpp Require Import gmap.
From Verif Require Import Base Dirs DirsText Fs.
Import ListNotations.

(** C103: where the operating system finds the directories of a target (or of an Args type, or
    crashes, hangs and queue) is what the component model (Dirs.v) says, for ids and names without
    slashes. *)
Theorem C103_components :
  forall (td : path) (id : option str) (k : kind) (krate target : str) (d : path),
    Forall plain td -> (forall i, id = Some i -> ~ In "/"%char i) -> ~ In "/"%char krate -> ~ In "/"%char target ->
    (dir_from_target td id k krate target = Ret d -> place (target_dir_text (path_text td) id k krate target) = d) /\
    (forall tn p, path_from_args_type tn = Ret p -> plain p -> dir_from_args_type td id k tn = Ret d ->
       exists t, args_dir_text (path_text td) id k tn = Ret t /\ place t = d) /\
    (forall sub, plain sub -> output_subdir td id sub krate target = Ret d ->
       place (output_subdir_text (path_text td) id sub krate target) = d).
Proof.
  intros td id k krate target d F I N1 N2. split; [|split].
  - now apply place_agrees.
  - intros tn p Ep P. now apply place_args with (p := p).
  - intros sub P. now apply place_subdir.
Qed.
Print Assumptions C103_components.

(** C103: with slashes in the id: its first piece ends the name of the kind's directory, and those
    of the other pieces that are not empty and not [.] are directories below it. *)
Theorem C103_pieces :
  forall (td : path) (i c : str) (cs : list str) (k : kind) (krate target : str),
    Forall plain td -> ~ In "/"%char krate -> ~ In "/"%char target ->
    pieces i (c :: cs) -> ~ In (lit "..") cs ->
    place (target_dir_text (path_text td) (Some i) k krate target)
    = td ++ match k with Output => [lit "afl"] | _ => [] end
         ++ [match k with
             | ImplGenericArgs => lit "impl_generic_args_" | GenericArgs => lit "generic_args_"
             | Corpus => lit "corpus_" | Output => lit "output_"
             end ++ c]
         ++ List.filter (fun x => negb (str_eqb x [] || str_eqb x (lit "."))) cs
         ++ [replace_char "-"%char "_"%char krate ++ lit "::" ++ target].
Proof.
  intros td i c cs k krate target F N1 N2 P D. rewrite place_target by assumption.
  rewrite pieces_segment, (pieces_fun _ _ P), resolve_down.
  - cbn [List.filter].
    assert (A : str_eqb (kind_name k ++ lit "_" ++ c) [] = false /\ str_eqb (kind_name k ++ lit "_" ++ c) (lit ".") = false)
      by (split; apply str_eqb_neq; destruct k; discriminate).
    rewrite (proj1 A), (proj2 A). cbn [negb andb].
    rewrite (List.filter_ext _ (fun x => negb (str_eqb x [] || str_eqb x (lit "."))))
      by (intros x; now rewrite negb_orb).
    unfold path_from_target. destruct k; cbn [kind_prefix]; rewrite <- ?app_assoc; reflexivity.
  - intros [E|I]; [destruct k; discriminate|contradiction].
Qed.
Print Assumptions C103_pieces.

(** C103: no piece of the id being [..], everything is below the target directory. *)
Theorem C103_inside :
  forall (td : path) (id : option str) (k : kind) (krate target : str),
    Forall plain td -> ~ In "/"%char krate -> ~ In "/"%char target ->
    (forall i cs, id = Some i -> pieces i cs -> ~ In (lit "..") cs) ->
    exists q, q <> [] /\ place (target_dir_text (path_text td) id k krate target) = td ++ q.
Proof.
  intros td [i|] k krate target F N1 N2 D.
  - pose proof (pieces_split i) as P. pose proof (D i _ eq_refl P) as Q.
    destruct (Build.split_slash i) as [|c cs] eqn:E; [now apply split_slash_nonempty in E|].
    rewrite (C103_pieces td i c cs k krate target F N1 N2 P) by (intros I; apply Q; now right).
    eexists. split; [|reflexivity]. destruct k; discriminate.
  - rewrite (place_agrees td None k krate target _ F) by (discriminate || assumption || apply dir_from_target_eq).
    destruct k; cbn [kind_prefix]; [exists [lit "impl_generic_args"; path_from_target krate target]
      |exists [lit "generic_args"; path_from_target krate target]|exists [lit "corpus"; path_from_target krate target]
      |exists [lit "afl"; lit "output"; path_from_target krate target]];
      (split; [discriminate|]); rewrite <- ?app_assoc; reflexivity.
Qed.
Print Assumptions C103_inside.

(** C103: with [..] in it, an id leads out of the target directory. *)
Theorem C103_inside_refuted :
  exists td i krate target,
    Forall plain td /\ ~ In "/"%char krate /\ ~ In "/"%char target /\
    place (target_dir_text (path_text td) (Some i) Corpus krate target) = [lit "etc"; lit "c::f"] /\
    ~ under td [lit "etc"; lit "c::f"].
Proof.
  exists [lit "w"; lit "target"], (lit "/../../../etc"), (lit "c"), (lit "f").
  split; [|split; [|split; [|split; [reflexivity|]]]].
  - repeat constructor; try discriminate; cbn; intros J; repeat (destruct J as [J|J]; [discriminate|]); exact J.
  - intros [J|[]]; discriminate.
  - intros [J|[]]; discriminate.
  - intros (q & E). discriminate.
Qed.
Print Assumptions C103_inside_refuted.

(** C103: different ids whose pieces, after the first, are names without colons never share
    directories, nor do different kinds, crates or targets. *)
Theorem C103_isolated :
  forall td id1 k1 c1 t1 id2 k2 c2 t2 p,
    Forall plain td ->
    (forall i, id1 = Some i \/ id2 = Some i ->
       exists c cs, pieces i (c :: cs) /\ Forall (fun x => plain x /\ ~ In ":"%char x) cs) ->
    (forall x, In x [c1; t1; c2; t2] -> ~ In "/"%char x) -> ~ In ":"%char c1 -> ~ In ":"%char c2 ->
    (id1, k1, replace_char "-"%char "_"%char c1, t1) <> (id2, k2, replace_char "-"%char "_"%char c2, t2) ->
    ~ (under (place (target_dir_text (path_text td) id1 k1 c1 t1)) p /\
       under (place (target_dir_text (path_text td) id2 k2 c2 t2)) p).
Proof.
  intros td id1 k1 c1 t1 id2 k2 c2 t2 p F I N C1 C2 D [U1 U2]. apply D.
  destruct (places_disjoint td id1 k1 c1 t1 id2 k2 c2 t2 p) as (-> & -> & E & ->); auto;
    try (intros i E; apply I; auto).
  change "-"%char with dash. change "_"%char with underscore. now rewrite E.
Qed.
Print Assumptions C103_isolated.

(** C103: in general they do: resetting a target in one namespace deletes what fuzzing has found in
    another, though no id has a piece that is empty, [.] or [..]. *)
Theorem C103_isolated_refuted :
  exists td i1 i2 krate t1 t2 (m m' : fs) crash,
    i1 <> i2 /\ (forall cs, pieces i1 cs \/ pieces i2 cs -> Forall plain cs) /\
    under (place (output_subdir_text (path_text td) (Some i2) (lit "crashes") krate t2)) crash /\
    m !! crash = Some (File (lit "boom")) /\
    remove_dir_all m (place (target_dir_text (path_text td) (Some i1) Output krate t1)) = Some m' /\
    m' !! crash = None.
Proof.
  pose (d := [lit "target"; lit "afl"; lit "output_ci"; lit "c::f"]).
  pose (p := d ++ [lit "c::g"; lit "default"; lit "crashes"; lit "x"]).
  exists [lit "target"], (lit "ci"), (lit "ci/c::f"), (lit "c"), (lit "f"), (lit "g").
  exists (<[d := Dir]> (<[p := File (lit "boom")]> ∅)), (filter (fun '(q, _) => is_prefix d q = false) (<[d := Dir]> (<[p := File (lit "boom")]> ∅))), p.
  split; [discriminate|]. split; [|split; [|split; [|split]]].
  - assert (A : forall x, x = lit "ci" \/ x = lit "c::f" -> plain x).
    { intros x [-> | ->]; (repeat split; try discriminate); cbn; intros J; repeat (destruct J as [J|J]; [discriminate|]); exact J. }
    intros cs [P|P]; apply pieces_fun in P; subst cs.
    + constructor; [|constructor]. apply A. now left.
    + constructor; [|constructor; [|constructor]]; apply A; [now left|now right].
  - exists [lit "x"]. reflexivity.
  - rewrite lookup_insert_ne by discriminate. apply lookup_insert.
  - reflexivity.
  - apply map_filter_lookup_None. right. intros x L. discriminate.
Qed.
Print Assumptions C103_isolated_refuted.

(** C103: different ids may mean the same namespace, and an id may mean the namespace without id,
    with all kinds of data in one place. *)
Theorem C103_names_refuted :
  (exists i1 i2, i1 <> i2 /\ forall td k krate target, Forall plain td -> ~ In "/"%char krate -> ~ In "/"%char target ->
     place (target_dir_text (path_text td) (Some i1) k krate target) = place (target_dir_text (path_text td) (Some i2) k krate target)) /\
  (exists i, forall td k krate target, Forall plain td -> ~ In "/"%char krate -> ~ In "/"%char target -> k <> Output ->
     place (target_dir_text (path_text td) (Some i) k krate target) = place (target_dir_text (path_text td) None Corpus krate target)).
Proof.
  split.
  - exists (lit "a"), (lit "a/"). split; [discriminate|]. intros td k krate target F N1 N2.
    rewrite !place_target by assumption. rewrite !pieces_segment. reflexivity.
  - exists (lit "/../corpus"). intros td k krate target F N1 N2 D.
    rewrite !place_target by assumption. rewrite !pieces_segment.
    assert (R : forall c, plain c -> resolve td [c; lit ".."; lit "corpus"] = td ++ [lit "corpus"]).
    { intros c (A1 & A2 & A3 & _). cbn [resolve].
      rewrite (proj2 (str_eqb_neq _ _) A1), (proj2 (str_eqb_neq _ _) A2), (proj2 (str_eqb_neq _ _) A3).
      change (str_eqb (lit "..") []) with false. change (str_eqb (lit "..") (lit ".")) with false.
      change (str_eqb (lit "..") (lit "..")) with true. cbn iota. rewrite removelast_last. reflexivity. }
    assert (Q : forall j, j <> Output -> plain (kind_name j ++ lit "_" ++ [])).
    { intros j _. destruct j; (repeat split; try discriminate); cbn; intros J; repeat (destruct J as [J|J]; [discriminate|]); exact J. }
    cbn [kind_prefix]. f_equal.
    replace (kind_prefix td k) with td by (destruct k; [reflexivity..|contradiction]).
    exact (R _ (Q k D)).
Qed.
Print Assumptions C103_names_refuted.

Example C103_example :
  place (target_dir_text (lit "/w//target/.") (Some (lit "a/b")) Output (lit "my-crate") (lit "m::f"))
  = [lit "w"; lit "target"; lit "afl"; lit "output_a"; lit "b"; lit "my_crate::m::f"] /\
  output_subdir_text (lit "/w/target") None (lit "queue") (lit "c") (lit "f") = lit "/w/target/afl/output/c::f/default/queue" /\
  join (lit "/a/") (lit "b") = lit "/a/b" /\ join (lit "/a") (lit "/b") = lit "/b" /\ join (lit "/a") [] = lit "/a/" /\
  args_dir_text (lit "/t") (Some (lit "x")) GenericArgs (lit "c::f_fuzz__::Args") = Ret (lit "/t/generic_args_x/c::f").
Proof. repeat split; reflexivity. Qed.
