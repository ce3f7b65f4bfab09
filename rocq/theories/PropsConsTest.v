(** C46: consolidating adds exactly the findings, and what the test of consolidating
    (cargo-test-fuzz/tests/integration/consolidate.rs) therefore checks. *)
From Coq Require Import List Ascii String Bool Arith Lia.
From stdpp Require Import gmap strings.
From Verif Require Import Base Dirs Sha1 Fs Write Opts Consolidate PropsConsolidate.
Import ListNotations.
Opaque sha1 corpus_name.

(** C46: after a successful consolidation the files of a content-addressed corpus are
    those that were there and the findings of the selected targets with that corpus, each under the
    name of its contents; and no directory has appeared among them. *)
Theorem C46_exact :
  forall s td id o ets m m' h k t d,
    io_ok s -> fs_wf m -> no_collision_in m -> consolidates o ->
    consolidate_or_reset s td id o ets m = Some (m', h, Ret tt) ->
    dir_from_target td id Corpus k t = Ret d -> content_addressed m d ->
    (forall n b, m' !! (d ++ [n]) = Some (File b) <->
       m !! (d ++ [n]) = Some (File b) \/
       n = corpus_name b /\ exists k' t' p, selected ets k' t' /\ dir_from_target td id Corpus k' t' = Ret d /\ finding td id m k' t' p b) /\
    (forall n, m' !! (d ++ [n]) = Some Dir -> m !! (d ++ [n]) = Some Dir).
Proof.
  intros s td id o ets m m' h k t d Hs W NC C E Ed CA. pose proof E as E0. rewrite consolidates_eq in E by exact C. injection E as E.
  apply seq_ret in E as (R1 & R2 & <-).
  pose proof (after_consolidate_closed s td id o ets m Hs W) as Cl.
  destruct (reset_all_ok s Hs td id o ets _ Cl) as [P _].
  rewrite corpus_of_eq in Ed. injection Ed as <-.
  assert (K : forall k t n, state (reset s td id o ets (state (consolidate s td id o ets m))) !! (corpus_of td id k t ++ [n]) =
     state (consolidate s td id o ets m) !! (corpus_of td id k t ++ [n])).
  { intros k' t' n. destruct (P (corpus_of td id k' t' ++ [n])) as [F|[(d & Hd & U) _]]; [congruence|].
    destruct (corpus_not_output _ _ _ _ _ _ _ Hd U). }
  destruct (consolidate_ok s Hs td id m o ets m (same_zone_refl td m)) as (_ & F1 & F2 & _).
  destruct (F2 R1) as (St & _).
  assert (Lk : forall n nd, state (consolidate s td id o ets m) !! (corpus_of td id k t ++ [n]) = Some nd ->
     m !! (corpus_of td id k t ++ [n]) = Some nd \/
     exists b, nd = File b /\ n = corpus_name b /\
       exists k' t' p, selected ets k' t' /\ dir_from_target td id Corpus k' t' = Ret (corpus_of td id k t) /\ finding td id m k' t' p b).
  { intros n nd L. rewrite St in L. apply record_all_lookup in L as [L|[(-> & _ & d' & x & I & Pf)|(d' & x & I & -> & Q)]].
    - now left.
    - apply F1 in I as (k' & t' & _ & (Q & _)). cbn [fst] in Q. subst d'. apply is_prefix_spec in Pf as (q & Pf).
      destruct (corpus_not_under td id k t k' t' n). now exists q.
    - right. apply F1 in I as (k' & t' & Sel & (Q' & p & Fd)). cbn [fst snd] in Q', Fd. apply app_inj_tail in Q as (<- & ->).
      exists x. split; [reflexivity|]. split; [reflexivity|]. exists k', t', p. rewrite corpus_of_eq, <- Q'. auto. }
  split.
  - intros n b. rewrite K. split.
    + intros L. apply Lk in L as [L|(b' & [= <-] & -> & L)]; auto.
    + intros [L|(-> & k' & t' & p & Sel & Q & Fd)].
      * destruct (consolidate_keeps s td id o ets m _ n b Hs NC CA L) as [H|(_ & N & _)]; [exact H|contradiction].
      * rewrite corpus_of_eq in Q. injection Q as <-. now apply (consolidate_records s td id o ets m k' t' p b).
  - intros n. rewrite K. intros L. apply Lk in L as [L|(b' & [=] & _)]; exact L.
Qed.
Print Assumptions C46_exact.

(** C46: cargo-test-fuzz/tests/integration/consolidate.rs:48,67: if before the consolidation there was just the one
    recorded call, then afterwards there is more than one entry exactly if the fuzzer had
    found something else. *)
Theorem C46_seen_by_test :
  forall s td id o k t m m' h d x ns,
    io_ok s -> fs_wf m -> no_collision_in m -> consolidates o ->
    consolidate_or_reset s td id o [(k, [t])] m = Some (m', h, Ret tt) ->
    dir_from_target td id Corpus k t = Ret d -> content_addressed m d ->
    lists_dir m d [corpus_name x] -> m !! (d ++ [corpus_name x]) = Some (File x) ->
    lists_dir m' d ns ->
    (1 < length ns <-> exists p b, finding td id m k t p b /\ b <> x).
Proof.
  intros s td id o k t m m' h d x ns Hs W NC C E Ed CA (_ & _ & L0) Lx (_ & ND & L1).
  destruct (C46_exact s td id o _ m m' h k t d Hs W NC C E Ed CA) as (Ex & Dx).
  assert (Ix : In (corpus_name x) ns).
  { apply L1. rewrite (proj2 (Ex _ x)) by auto. discriminate. }
  assert (Sel : forall k' t', selected [(k, [t])] k' t' -> k' = k /\ t' = t).
  { intros k' t' (ts & [[= <- <-]|[]] & [<-|[]]). auto. }
  split.
  - intros Len.
    assert (N : exists n, In n ns /\ n <> corpus_name x).
    { destruct ns as [|a [|b ns]]; cbn in Len; [lia|lia|].
      destruct (str_dec a (corpus_name x)) as [->|Na]; [|exists a; split; [now left|exact Na]].
      exists b. split; [right; now left|]. intros ->. apply NoDup_cons in ND as [ND _]. apply ND. left. }
    destruct N as (n & I & Nn). apply L1 in I. destruct (m' !! (d ++ [n])) as [[b|]|] eqn:L; [| |congruence].
    + apply Ex in L as [L|(-> & k' & t' & p & S1 & _ & Fd)].
      * exfalso. apply Nn. assert (I' : In n [corpus_name x]) by (apply L0; congruence). now destruct I' as [<-|[]].
      * apply Sel in S1 as (-> & ->). exists p, b. split; [exact Fd|]. intros ->. now apply Nn.
    + apply Dx in L. exfalso. apply Nn. assert (I' : In n [corpus_name x]) by (apply L0; congruence). now destruct I' as [<-|[]].
  - intros (p & b & Fd & Nb).
    assert (Ib : In (corpus_name b) ns).
    { apply L1. rewrite (proj2 (Ex _ b)); [discriminate|]. right. split; [reflexivity|]. exists k, t, p.
      split; [exists [t]; split; now left|]. auto. }
    assert (Nn : corpus_name b <> corpus_name x).
    { intros Q. apply Nb. destruct Fd as (sub & d' & n' & _ & _ & _ & _ & -> & Lb). eapply NC; [exact Lb|exact Lx|]. now apply corpus_name_eq in Q. }
    destruct ns as [|a [|a' ns]]; cbn [length]; [destruct Ib| |lia].
    destruct Ix as [Ix|[]], Ib as [Ib|[]]. congruence.
Qed.
Print Assumptions C46_seen_by_test.

(** A corpus with one entry and, in the queue, that call and another one. *)
Definition ex_before : fs :=
  <[ex_dir_of (lit "f") [lit "queue"; lit "id:1"] := File (lit "A")]> (<[ex_dir_of (lit "f") [lit "crashes"; lit "id:0"] := File (lit "B")]> ex_corpus_fs).

Example C46_test_example :
  match consolidate_or_reset real_io ex_td None (set_cons default_opts) ex_one ex_corpus_fs with
  | Some (m', _, Ret _) => has_file m' (corpus_file (lit "f") (lit "A")) (lit "A") && negb (has_file m' (corpus_file (lit "f") (lit "B")) (lit "B"))
  | _ => false
  end = true /\
  match consolidate_or_reset real_io ex_td None (set_cons default_opts) ex_one ex_before with
  | Some (m', _, Ret _) => has_file m' (corpus_file (lit "f") (lit "A")) (lit "A") && has_file m' (corpus_file (lit "f") (lit "B")) (lit "B")
  | _ => false
  end = true.
Proof. Transparent sha1 corpus_name. vm_compute. auto. Qed.
