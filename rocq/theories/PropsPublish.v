(** Theorems about the workflow that publishes a release (C134). *)
From Coq Require Import Ascii String List Bool Arith NArith Lia.
From Verif Require Import Base Publish.
Import ListNotations.

Lemma after_some_spec p f s : after_some p f s = true <-> exists a b, s = a ++ p ++ b /\ f b = true.
Proof.
  induction s as [|c s IH]; cbn [after_some]; rewrite orb_true_iff.
  - split.
    + intros [H|H]; [|discriminate]. destruct (strip_prefix p []) as [r|] eqn:S; [|discriminate]. apply strip_prefix_spec in S. exists [], r. auto.
    + intros (a & b & E & F). left. destruct a; [|discriminate]. cbn [app] in E. now replace (strip_prefix p []) with (Some b) by (symmetry; now apply strip_prefix_spec).
  - rewrite IH. split.
    + intros [H|(a & b & -> & F)]; [|exists (c :: a), b; auto]. destruct (strip_prefix p (c :: s)) as [r|] eqn:S; [|discriminate]. apply strip_prefix_spec in S. exists [], r. auto.
    + intros (a & b & E & F). destruct a as [|x a].
      * left. cbn [app] in E. now replace (strip_prefix p (c :: s)) with (Some b) by (symmetry; now apply strip_prefix_spec).
      * right. cbn [app] in E. injection E as _ ->. eauto.
Qed.

(** Which lines are taken to say that a crate has been published before. *)
Theorem C134_line :
  forall l : str,
    exists_line l = true <->
    exists before name, l = before ++ lit ": crate " ++ name ++ lit " already exists on crates.io index" /\ ~ In "`"%char name.
Proof.
  intros l. unfold exists_line. rewrite after_some_spec. split.
  - intros (a & b & -> & F). destruct (strip_suffix _ b) as [x|] eqn:S; [|discriminate]. apply strip_suffix_spec in S. subst b. exists a, x. split; [reflexivity|].
    rewrite forallb_forall in F. intros I. apply F in I. discriminate I.
  - intros (a & x & -> & N). exists a, (x ++ lit " already exists on crates.io index"). split; [reflexivity|].
    replace (strip_suffix _ _) with (Some x) by (symmetry; now apply strip_suffix_spec). apply forallb_forall. intros c I. apply negb_true_iff. apply Ascii.eqb_neq. intros ->. contradiction.
Qed.
Print Assumptions C134_line.

Lemma publish_all run : honest run -> forall cs n index index', publish run n cs index = (true, index') -> incl index index' /\ incl cs index'.
Proof.
  intros H. induction cs as [|c cs IH]; intros n index index' P; cbn [publish] in P.
  - injection P as <-. split; [apply incl_refl|intros x []].
  - specialize (H n c index). destruct (run n c index) as ((ok, err), i1). destruct H as (H1 & H2 & H3).
    assert (G : In c i1 -> publish run (S n) cs i1 = (true, index') -> incl index index' /\ incl (c :: cs) index').
    { intros I Q. apply IH in Q as (Q1 & Q2). split; [now apply incl_tran with i1|]. intros x [<-|J]; [now apply Q1|now apply Q2]. }
    destruct ok; [now apply G; [apply H2|]|]. destruct (rev err) as [|l t] eqn:R; [discriminate|]. destruct (exists_line l) eqn:E; [|discriminate].
    apply G; [|exact P]. apply (H3 (rev t) l); [|exact E]. rewrite <- (rev_involutive err), R. reflexivity.
Qed.

(** If the step succeeds, all five crates are published, whatever was before. *)
Theorem C134_published :
  forall (run : cargo) (index index' : list str),
    honest run -> publish run 0 crates index = (true, index') ->
    incl index index' /\
    forall c, In c [lit "internal"; lit "macro"; lit "runtime"; lit "test-fuzz"; lit "cargo-test-fuzz"] -> In c index'.
Proof. intros run index index' H P. destruct (publish_all run H _ _ _ _ P) as (P1 & P2). split; [exact P1|exact P2]. Qed.
Print Assumptions C134_published.

Lemma publish_able run : honest run -> able run -> forall cs n index,
  (forall pre c post, cs = pre ++ c :: post -> forall d, In d (deps c) -> In d index \/ In d pre) ->
  exists index', publish run n cs index = (true, index').
Proof.
  intros H A. induction cs as [|c cs IH]; intros n index D; cbn [publish]; [eauto|].
  specialize (H n c index). specialize (A n c index). destruct (run n c index) as ((ok, err), i1). destruct H as (H1 & H2 & _), A as (A1 & A2).
  assert (Dc : incl (deps c) index) by (intros d I; destruct (D [] c cs eq_refl d I) as [J|[]]; exact J).
  assert (G : In c i1 -> exists index', publish run (S n) cs i1 = (true, index')).
  { intros I. apply IH. intros pre x post E d J. destruct (D (c :: pre) x post) with (d := d) as [K|[<-|K]]; [now rewrite E|exact J|left; now apply H1|now left|now right]. }
  destruct (in_dec (list_eq_dec ascii_dec) c index) as [I|I].
  - destruct (A1 I) as (-> & t & name & -> & N). rewrite rev_app_distr. cbn [rev app].
    replace (exists_line _) with true; [apply G; now apply H1|]. symmetry. apply C134_line. exists (lit "error"), name. split; [reflexivity|exact N].
  - rewrite (A2 I Dc) in *. apply G. now apply H2.
Qed.

(** The order is such that the step succeeds whatever part of the crates has been published before,
    for instance by an attempt that failed; only serde_combinators must have been. *)
Theorem C134_again :
  forall (run : cargo) (index : list str),
    honest run -> able run -> In (lit "serde_combinators") index ->
    exists index', publish run 0 crates index = (true, index').
Proof.
  intros run index H A S. apply publish_able; [exact H|exact A|]. intros pre c post E d I.
  assert (X : forall k, nth_error crates k = Some c -> pre = firstn k crates -> In d index \/ In d pre).
  { intros k K ->. destruct k as [|[|[|[|[|k]]]]]; cbn in K; try (injection K as <-); try (now destruct k);
      cbn in I; repeat (destruct I as [<-|I]; [try (left; exact S); right; vm_compute; tauto|]); contradiction. }
  apply (X (List.length pre)); rewrite E.
  - rewrite nth_error_app2 by lia. rewrite Nat.sub_diag. reflexivity.
  - rewrite firstn_app, Nat.sub_diag, firstn_all. cbn. now rewrite app_nil_r.
Qed.
Print Assumptions C134_again.

(** A [cargo publish] that refuses crates with unpublished dependencies. *)
Definition ex_cargo : cargo := fun _ c index =>
  if existsb (str_eqb c) index then (false, [lit "    Updating crates.io index"; lit "error: crate test-fuzz@8.1.1 already exists on crates.io index"], index)
  else if forallb (fun d => existsb (str_eqb d) index) (deps c) then (true, [], c :: index)
  else (false, [lit "error: failed to prepare local package for uploading"], index).

(** The workflow does not publish serde_combinators; if it has not been by other means, three crates
    are published and the others are not. *)
Theorem C134_combinators_refuted :
  exists run index', honest run /\ able run /\ publish run 0 crates [] = (false, index') /\
    (forall c, In c index' <-> In c [lit "internal"; lit "macro"; lit "runtime"]).
Proof.
  exists ex_cargo, [lit "runtime"; lit "macro"; lit "internal"].
  assert (X : forall c l, existsb (str_eqb c) l = true <-> In c l).
  { intros c l. rewrite existsb_exists. split; [intros (x & I & E); apply str_eqb_eq in E; now subst x|intros I; exists c; split; [exact I|apply str_eqb_refl]]. }
  split; [|split; [|split]].
  - intros n c index. unfold ex_cargo. destruct (existsb (str_eqb c) index) eqn:E; [|destruct (forallb _ (deps c))].
    + split; [apply incl_refl|]. split; [discriminate|]. intros _ _ _ _. now apply X.
    + split; [intros x I; now right|]. split; [now left|]. intros t l K. now destruct t.
    + split; [apply incl_refl|]. split; [discriminate|]. intros t l K L. change [lit "error: failed to prepare local package for uploading"] with ([] ++ [lit "error: failed to prepare local package for uploading"]) in K.
      apply app_inj_tail in K as (_ & <-). vm_compute in L. discriminate L.
  - intros n c index. unfold ex_cargo. destruct (existsb (str_eqb c) index) eqn:E; [|destruct (forallb _ (deps c)) eqn:F].
    + split.
      * intros _. split; [reflexivity|]. exists [lit "    Updating crates.io index"], (lit "test-fuzz@8.1.1"). split; [reflexivity|]. vm_compute. intuition discriminate.
      * intros N. apply X in E. contradiction.
    + split; [intros I; apply X in I; congruence|reflexivity].
    + split; [intros I; apply X in I; congruence|]. intros _ J. exfalso. rewrite <- not_true_iff_false in F. apply F. apply forallb_forall. intros d I. apply X. now apply J.
  - vm_compute. reflexivity.
  - intros c. cbn. tauto.
Qed.
Print Assumptions C134_combinators_refuted.

(** The version in the name of the release is the one of the tag. *)
Theorem C134_version :
  forall v : str, version_of (lit "refs/tags/v" ++ v) = v.
Proof. intros v. reflexivity. Qed.
Print Assumptions C134_version.

(** In general the first occurrence of what precedes the version is removed, and nothing else. *)
Theorem C134_ref :
  forall ref : str,
    let p := lit "refs/tags/v" in
    (~ occurs_in p ref -> version_of ref = ref) /\
    (forall a b, ref = a ++ p ++ b -> (forall a' b', ref = a' ++ p ++ b' -> List.length a <= List.length a') -> version_of ref = a ++ b).
Proof.
  intros ref p. unfold version_of. fold p. clearbody p. induction ref as [|c s (IH1 & IH2)].
  - split.
    + intros N. cbn. destruct (strip_prefix p []) as [r|] eqn:S; [|reflexivity]. apply strip_prefix_spec in S. destruct N. exists [], r. exact S.
    + intros a b E _. destruct a; [|discriminate E]. cbn. replace (strip_prefix p []) with (Some b) by (symmetry; now apply strip_prefix_spec). reflexivity.
  - cbn [without_first]. destruct (strip_prefix p (c :: s)) as [r|] eqn:S.
    + apply strip_prefix_spec in S. split; [intros N; destruct N; exists [], r; exact S|]. intros a b E M. specialize (M [] r S). destruct a; [|cbn in M; lia].
      cbn [app] in *. rewrite E in S. now apply app_inv_head in S.
    + split.
      * intros N. f_equal. apply IH1. intros (a & b & ->). apply N. exists (c :: a), b. reflexivity.
      * intros [|x a] b E M.
        -- cbn [app] in E. apply strip_prefix_spec in E. congruence.
        -- cbn [app] in *. injection E as <- E. f_equal. apply IH2; [exact E|]. intros a' b' E'. specialize (M (c :: a') b'). cbn in M. rewrite E' in M. specialize (M eq_refl). lia.
Qed.
Print Assumptions C134_ref.

(** What has to be published before what. *)
Theorem C134_needs :
  forall c d : str,
    In d (deps c) <->
    (c = lit "runtime" /\ d = lit "internal") \/
    (c = lit "test-fuzz" /\ In d [lit "internal"; lit "runtime"; lit "serde_combinators"; lit "macro"]) \/
    (c = lit "cargo-test-fuzz" /\ In d [lit "internal"; lit "runtime"]).
Proof.
  intros c d. unfold deps. destruct (str_eqb c (lit "runtime")) eqn:E1.
  { apply str_eqb_eq in E1. subst c. cbn [In]. split; [intros [<-|[]]; auto|]. intros [(_ & ->)|[(K & _)|(K & _)]]; [auto|discriminate K|discriminate K]. }
  apply str_eqb_neq in E1. destruct (str_eqb c (lit "test-fuzz")) eqn:E2.
  { apply str_eqb_eq in E2. subst c. split; [auto|]. intros [(K & _)|[(_ & I)|(K & _)]]; [discriminate K|exact I|discriminate K]. }
  apply str_eqb_neq in E2. destruct (str_eqb c (lit "cargo-test-fuzz")) eqn:E3.
  { apply str_eqb_eq in E3. subst c. split; [auto|]. intros [(K & _)|[(K & _)|(_ & I)]]; [discriminate K|discriminate K|exact I]. }
  apply str_eqb_neq in E3. split; [intros []|]. intros [(K & _)|[(K & _)|(K & _)]]; contradiction.
Qed.
Print Assumptions C134_needs.

(** In lower case each of the letters from A to Z is replaced by its counterpart, and nothing else is
    changed. *)
Theorem C134_lower :
  let upper := lit "ABCDEFGHIJKLMNOPQRSTUVWXYZ" in
  map lower upper = lit "abcdefghijklmnopqrstuvwxyz" /\ (forall c, ~ In c upper -> lower c = c).
Proof.
  split; [reflexivity|]. intros c N.
  assert (H : forall c, In c (lit "ABCDEFGHIJKLMNOPQRSTUVWXYZ") \/ lower c = c).
  { intros [[] [] [] [] [] [] [] []]; ((right; reflexivity) || (left; vm_compute; tauto)). }
  destruct (H c) as [I|I]; [contradiction|exact I].
Qed.
Print Assumptions C134_lower.

(** A release is marked as a prerelease exactly if the version, in lower case, has "pre" or "rc" in
    it. *)
Theorem C134_prerelease :
  forall v : str,
    prerelease (lit "refs/tags/v" ++ v) = true <-> occurs_in (lit "pre") (map lower v) \/ occurs_in (lit "rc") (map lower v).
Proof.
  intros v.
  assert (C : forall ref p, contains_folded ref p = true <-> occurs_in p (map lower ref)).
  { intros ref p. unfold contains_folded. rewrite after_some_spec. split; [intros (a & b & E & _)|intros (a & b & E)]; exists a, b; auto. }
  unfold prerelease. rewrite orb_true_iff, !C. rewrite map_app.
  assert (S : forall p, (forall k, k < 11 -> strip_prefix p (skipn k (map lower (lit "refs/tags/v")) ++ map lower v) = None) ->
    occurs_in p (map lower (lit "refs/tags/v") ++ map lower v) <-> occurs_in p (map lower v)).
  { intros p N. split.
    - intros (a & b & E). destruct (le_lt_dec 11 (List.length a)) as [G|G].
      + exists (skipn 11 a), b. assert (X : skipn 11 (map lower (lit "refs/tags/v") ++ map lower v) = skipn 11 (a ++ p ++ b)) by now rewrite E.
        rewrite skipn_app in X. change (skipn 11 (map lower (lit "refs/tags/v"))) with (@nil ascii) in X. change (11 - List.length (map lower (lit "refs/tags/v"))) with 0 in X.
        cbn [app] in X. change (skipn 0 (map lower v)) with (map lower v) in X. rewrite X, skipn_app. replace (11 - List.length a) with 0 by lia. reflexivity.
      + exfalso. specialize (N _ G). assert (X : skipn (List.length a) (map lower (lit "refs/tags/v") ++ map lower v) = p ++ b).
        { rewrite E, skipn_app, skipn_all, Nat.sub_diag. reflexivity. }
        rewrite skipn_app in X. replace (List.length a - List.length (map lower (lit "refs/tags/v"))) with 0 in X by (change (List.length (map lower (lit "refs/tags/v"))) with 11; lia).
        change (skipn 0 (map lower v)) with (map lower v) in X. apply strip_prefix_spec in X. congruence.
    - intros (a & b & ->). exists (map lower (lit "refs/tags/v") ++ a), b. now rewrite <- app_assoc. }
  rewrite !S; [reflexivity| |]; intros k K; do 11 (destruct k as [|k]; [vm_compute; reflexivity|]); lia.
Qed.
Print Assumptions C134_prerelease.

(** This is not what versions say: there are versions with a part for prereleases that are not marked,
    and marked versions without. *)
Theorem C134_prerelease_refuted :
  prerelease (lit "refs/tags/v8.2.0-alpha.1") = false /\ prerelease (lit "refs/tags/v8.2.0+march") = true.
Proof. vm_compute. split; reflexivity. Qed.
Print Assumptions C134_prerelease_refuted.

(** The notes of a release are the lines that the last change of the changelog has added, in order,
    but for those that begin with a plus sign. *)
Theorem C134_notes :
  forall (commit message file : list str) (cs : list change),
    (forall l t, In l (commit ++ file) -> l <> "+"%char :: t) ->
    notes (log_lines commit message file cs) =
    List.filter (fun l => match l with c :: _ => negb (Ascii.eqb c "+") | [] => true end) (flat_map (fun c => match c with Added l => [l] | _ => [] end) cs).
Proof.
  intros commit message file cs N.
  assert (A : forall a b, notes (a ++ b) = notes a ++ notes b) by (intros a b; apply flat_map_app).
  assert (Z : forall ls, (forall l t, In l ls -> l <> "+"%char :: t) -> notes ls = []).
  { induction ls as [|l ls IH]; intros H; [reflexivity|]. cbn [notes flat_map]. fold (notes ls). rewrite IH by (intros x t I; apply H; now right). rewrite app_nil_r.
    destruct l as [|c l]; [reflexivity|]. destruct (ascii_dec c "+") as [->|D]; [destruct (H ("+"%char :: l) l); [now left|reflexivity]|].
    destruct c as [[] [] [] [] [] [] [] []]; try reflexivity. now destruct D. }
  unfold log_lines. rewrite !A. rewrite (Z commit) by (intros l t I; apply N; apply in_or_app; now left). rewrite (Z file) by (intros l t I; apply N; apply in_or_app; now right).
  rewrite (Z (map _ message)) by (intros l t I; apply in_map_iff in I as (x & <- & _); discriminate).
  change (notes [lit "--- a/CHANGELOG.md"; lit "+++ b/CHANGELOG.md"]) with (@nil str). cbn [app].
  induction cs as [|c cs IH]; [reflexivity|]. cbn [map]. change (notes (diff_line c :: map diff_line cs)) with (notes ([diff_line c] ++ map diff_line cs)). rewrite A, IH.
  cbn [flat_map]. rewrite filter_app. f_equal. destruct c as [l|[|c l]|l|l]; try reflexivity.
  unfold notes. cbn [flat_map diff_line List.filter]. rewrite app_nil_r. now destruct (Ascii.eqb c "+").
Qed.
Print Assumptions C134_notes.

(** An attempt that continues another; the notes of a release. *)
Example C134_example :
  publish ex_cargo 0 crates [lit "serde_combinators"; lit "internal"; lit "runtime"]
    = (true, [lit "cargo-test-fuzz"; lit "test-fuzz"; lit "macro"; lit "serde_combinators"; lit "internal"; lit "runtime"]) /\
  publish ex_cargo 0 (rev crates) [lit "serde_combinators"] = (false, [lit "serde_combinators"]) /\
  exists_line (lit "error: crate version `8.1.1` is already uploaded") = false /\
  notes (log_lines [lit "commit 1f"; lit "Author: a"; []] [lit "+ x"] [lit "index 1..2"] [Hunk (lit " -1 +1,4 @@"); Kept (lit "# Changelog"); Added []; Added (lit "## 8.2.0"); Removed (lit "y"); Added (lit "- FEATURE"); Added (lit "+ more")])
    = [[]; lit "## 8.2.0"; lit "- FEATURE"] /\
  prerelease (lit "refs/tags/v8.2.0-rc1") = true /\ prerelease (lit "refs/tags/v8.2.0") = false.
Proof. vm_compute. repeat split. Qed.
