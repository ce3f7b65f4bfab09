(** Theorems about consolidating and resetting (C46-C49). *)
From Coq Require Import List Ascii String Bool Arith Lia.
From stdpp Require Import gmap strings.
From Verif Require Import Base Dirs Sha1 Fs Write Opts Consolidate.
Import ListNotations.
Opaque sha1 corpus_name.

(** The invocation asks for consolidation and gets it: [--consolidate-all], or
    [--consolidate] without [--reset-all] (see C46_reset_all_wins_refuted). *)
Definition consolidates (o : opts) : Prop :=
  o_consolidate_all o = true \/ (o_consolidate o = true /\ o_reset_all o = false).

(** The invocation only resets. *)
Definition only_resets (o : opts) : Prop :=
  o_consolidate_all o = false /\ (o_reset_all o = true \/ (o_reset o = true /\ o_consolidate o = false)).

Lemma consolidates_eq s td id o ets m :
  consolidates o ->
  consolidate_or_reset s td id o ets m = Some (seq (consolidate s td id o ets m) (reset s td id o ets)).
Proof.
  unfold consolidates, consolidate_or_reset. intros [->|[-> ->]]; cbn; [reflexivity|].
  destruct (o_consolidate_all o); reflexivity.
Qed.

Lemma only_resets_eq s td id o ets m :
  only_resets o -> consolidate_or_reset s td id o ets m = Some (reset s td id o ets m).
Proof.
  unfold only_resets, consolidate_or_reset. intros (-> & [->|[-> ->]]); cbn.
  - destruct (reset s td id o ets m) as [[m' h] r]. reflexivity.
  - rewrite orb_true_r || cbn. destruct (o_reset_all o); destruct (reset s td id o ets m) as [[m' h] r]; reflexivity.
Qed.

Lemma seq_ret r f m h : seq r f = (m, h, Ret tt) ->
  result r = Ret tt /\ result (f (state r)) = Ret tt /\ state (f (state r)) = m.
Proof.
  destruct r as [[m1 h1] [[]|e|]]; cbn; unfold result, state; cbn; [|discriminate|discriminate].
  destruct (f m1) as [[m2 h2] r2]. cbn. intros [= -> _ ->]. auto.
Qed.

Lemma seq_not_ret r f : result r <> Ret tt -> seq r f = r.
Proof. destruct r as [[m1 h1] [[]|e|]]; unfold result; cbn; congruence. Qed.

Lemma after_consolidate_closed s td id o ets m :
  io_ok s -> fs_wf m -> closed (outputs td id ets) (state (consolidate s td id o ets m)).
Proof.
  intros Hs W. destruct (consolidate_ok s Hs td id m o ets m (same_zone_refl td m)) as (Z & _).
  apply (closed_same_zone td id ets m); [exact Z|]. apply closed_wf; [|exact W].
  intros d Hd. destruct (outputs_zone _ _ _ _ Hd) as (k & t & ->). apply output_of_nonempty.
Qed.

(** C46: after a successful consolidation every finding of every selected target
    is in the target's corpus, every content-addressed corpus entry is kept, and
    the selected targets' output is gone. *)
Theorem C46_no_finding_lost :
  forall s td id o ets m m' h,
    io_ok s -> fs_wf m -> no_collision_in m -> consolidates o ->
    consolidate_or_reset s td id o ets m = Some (m', h, Ret tt) ->
    (forall k t p b, selected ets k t -> finding td id m k t p b -> in_corpus td id m' k t b) /\
    (forall k t d n b, dir_from_target td id Corpus k t = Ret d -> content_addressed m d ->
       m !! (d ++ [n]) = Some (File b) -> m' !! (d ++ [n]) = Some (File b)) /\
    (forall k t d p, selected ets k t -> dir_from_target td id Output k t = Ret d -> under d p -> m' !! p = None).
Proof.
  intros s td id o ets m m' h Hs W NC C E. rewrite consolidates_eq in E by exact C. injection E as E.
  apply seq_ret in E as (R1 & R2 & <-).
  pose proof (after_consolidate_closed s td id o ets m Hs W) as Cl.
  destruct (reset_all_ok s Hs td id o ets _ Cl) as [P Q]. destruct (Q R2) as [_ Q'].
  assert (K : forall k t n b, state (consolidate s td id o ets m) !! (corpus_of td id k t ++ [n]) = Some (File b) ->
     state (reset s td id o ets (state (consolidate s td id o ets m))) !! (corpus_of td id k t ++ [n]) = Some (File b)).
  { intros k t n b L. destruct (P (corpus_of td id k t ++ [n])) as [F|[(d & Hd & U) _]]; [congruence|].
    destruct (corpus_not_output _ _ _ _ _ _ _ Hd U). }
  split; [|split].
  - intros k t p b Sel F. exists (corpus_of td id k t), (corpus_name b). split; [apply corpus_of_eq|].
    apply K. now apply (consolidate_records s td id o ets m k t p b).
  - intros k t d n b Ed CA L. rewrite corpus_of_eq in Ed. injection Ed as <-. apply K.
    destruct (consolidate_keeps s td id o ets m _ n b Hs NC CA L) as [H|(_ & N & _)]; [exact H|contradiction].
  - intros k t d p Sel Ed U. apply (Q' d); [|exact U]. exists k, t. auto.
Qed.
Print Assumptions C46_no_finding_lost.

(** C46: at every intermediate point, including in the middle of a write or of the
    removal, each finding is still in the output or already in the corpus. *)
Theorem C46_crash_safe :
  forall s td id o ets m m' k t p b,
    io_ok s -> no_collision_in m -> crash_state s td id o ets m m' ->
    selected ets k t -> finding td id m k t p b ->
    m' !! p = Some (File b) \/ in_corpus td id m' k t b.
Proof. exact crash_safe. Qed.
Print Assumptions C46_crash_safe.

(** C46: consolidation succeeds when the three directories of every selected target
    exist and contain only files (README.txt and .state aside), the corpora can be
    written to and no operation fails without need. *)
Theorem C46_succeeds :
  forall s td id o ets m,
    io_ok s -> io_good s -> (o_consolidate_all o = true /\ o_reset_all o = true \/ exactly_one ets) ->
    consolidates o -> (forall k t, selected ets k t -> consolidatable td id m k t) ->
    (forall k t d, selected ets k t -> dir_from_target td id Output k t = Ret d ->
                   m !! d = None \/ m !! d = Some Dir) ->
    exists m' h, consolidate_or_reset s td id o ets m = Some (m', h, Ret tt).
Proof.
  intros s td id o ets m Hs G O C H1 H2. rewrite consolidates_eq by exact C.
  assert (R1 : result (consolidate s td id o ets m) = Ret tt).
  { apply consolidate_succeeds; auto. destruct O as [[O _]|O]; auto. }
  destruct (consolidate_ok s Hs td id m o ets m (same_zone_refl td m)) as (Z & _).
  assert (R2 : result (reset s td id o ets (state (consolidate s td id o ets m))) = Ret tt).
  { apply reset_succeeds; auto; [destruct O as [[_ O]|O]; auto|].
    intros k t d Sel Ed. rewrite Z; [now apply (H2 k t)|].
    rewrite output_of_eq in Ed. injection Ed as <-. apply (output_in_zone td id k t). exists []. now rewrite app_nil_r. }
  destruct (consolidate s td id o ets m) as [[m1 h1] r1]. unfold result, state in *. cbn in R1, R2. subst r1. cbn.
  destruct (reset s td id o ets m1) as [[m2 h2] r2]. cbn in R2. subst r2. eauto.
Qed.
Print Assumptions C46_succeeds.

(** C46, the exception: [--consolidate] together with [--reset-all] resets all
    targets without consolidating any; findings are lost. *)
Definition ex_dir_of (t : str) (rest : list str) : path :=
  [lit "t"; lit "afl"; lit "output"; lit "c::" ++ t; lit "default"] ++ rest.
Definition ex_base : fs :=
  list_to_map [([lit "t"], Dir); ([lit "t"; lit "afl"], Dir); ([lit "t"; lit "afl"; lit "output"], Dir)].
Definition ex_target (t : str) (q : bytes) (m : fs) : fs :=
  <[ex_dir_of t [lit "queue"; lit "id:0"] := File q]>
  (<[ex_dir_of t [lit "queue"; lit ".state"] := Dir]>
  (<[ex_dir_of t [lit "queue"] := Dir]> (<[ex_dir_of t [lit "hangs"] := Dir]>
  (<[ex_dir_of t [lit "crashes"] := Dir]> (<[ex_dir_of t [lit "crashes"; lit "README.txt"] := File (lit "r")]>
  (<[ex_dir_of t [] := Dir]> (<[[lit "t"; lit "afl"; lit "output"; lit "c::" ++ t] := Dir]> m))))))).
Definition ex_fs : fs := ex_target (lit "g") (lit "B") (ex_target (lit "f") (lit "A") ex_base).
Definition set_cons (o : opts) : opts :=
  {| o_backtrace := o_backtrace o; o_consolidate := true; o_consolidate_all := o_consolidate_all o;
     o_coverage := o_coverage o; o_cpus := o_cpus o; o_display := o_display o; o_exact := o_exact o;
     o_exit_code := o_exit_code o; o_features := o_features o; o_list := o_list o;
     o_manifest_path := o_manifest_path o; o_max_total_time := o_max_total_time o;
     o_no_default_features := o_no_default_features o; o_no_run := o_no_run o; o_no_ui := o_no_ui o;
     o_package := o_package o; o_persistent := o_persistent o; o_pretty := o_pretty o;
     o_release := o_release o; o_replay := o_replay o; o_reset := o_reset o; o_reset_all := o_reset_all o;
     o_resume := o_resume o; o_run_until_crash := o_run_until_crash o; o_slice := o_slice o;
     o_test := o_test o; o_timeout := o_timeout o; o_verbose := o_verbose o; o_ztarget := o_ztarget o;
     o_zzargs := o_zzargs o |}.
Definition set_flags (c_all r r_all : bool) (o : opts) : opts :=
  {| o_backtrace := o_backtrace o; o_consolidate := o_consolidate o; o_consolidate_all := c_all;
     o_coverage := o_coverage o; o_cpus := o_cpus o; o_display := o_display o; o_exact := o_exact o;
     o_exit_code := o_exit_code o; o_features := o_features o; o_list := o_list o;
     o_manifest_path := o_manifest_path o; o_max_total_time := o_max_total_time o;
     o_no_default_features := o_no_default_features o; o_no_run := o_no_run o; o_no_ui := o_no_ui o;
     o_package := o_package o; o_persistent := o_persistent o; o_pretty := o_pretty o;
     o_release := o_release o; o_replay := o_replay o; o_reset := r; o_reset_all := r_all;
     o_resume := o_resume o; o_run_until_crash := o_run_until_crash o; o_slice := o_slice o;
     o_test := o_test o; o_timeout := o_timeout o; o_verbose := o_verbose o; o_ztarget := o_ztarget o;
     o_zzargs := o_zzargs o |}.

Definition ex_td : path := [lit "t"].
Definition ex_one : list (str * list str) := [(lit "c", [lit "f"])].
Definition ex_two : list (str * list str) := [(lit "c", [lit "f"; lit "g"])].

(** No file of [m] contains [b]. *)
Definition no_file (m : fs) (b : bytes) : bool :=
  forallb (fun pn : path * node => match pn.2 with File c => negb (str_eqb c b) | Dir => true end) (map_to_list m).
Lemma no_file_spec m b : no_file m b = true -> forall q, m !! q <> Some (File b).
Proof.
  unfold no_file. rewrite forallb_forall. intros H q L. apply elem_of_map_to_list, elem_of_list_In, H in L.
  cbn in L. now rewrite str_eqb_refl in L.
Qed.

(** C46: with [--reset-all] as well, [--consolidate] is ignored: the finding is nowhere afterwards. *)
Theorem C46_reset_all_wins_refuted :
  exists s td id o ets m m' h k t p b,
    io_ok s /\ io_good s /\ o_consolidate o = true /\ exactly_one ets /\
    consolidate_or_reset s td id o ets m = Some (m', h, Ret tt) /\
    selected ets k t /\ finding td id m k t p b /\
    forall q, m' !! q <> Some (File b).
Proof.
  exists real_io, ex_td, None, (set_flags false false true (set_cons default_opts)), ex_one,
    (ex_target (lit "f") (lit "A") ex_base).
  assert (R : match consolidate_or_reset real_io ex_td None (set_flags false false true (set_cons default_opts)) ex_one
    (ex_target (lit "f") (lit "A") ex_base) with Some (m', _, Ret _) => no_file m' (lit "A") | _ => false end = true)
    by (vm_compute; reflexivity).
  destruct (consolidate_or_reset real_io ex_td None (set_flags false false true (set_cons default_opts)) ex_one
    (ex_target (lit "f") (lit "A") ex_base)) as [[[m' h] [[]|e|]]|]; try discriminate R.
  exists m', h, (lit "c"), (lit "f"), (ex_dir_of (lit "f") [lit "queue"; lit "id:0"]), (lit "A").
  split; [exact real_io_ok|]. split; [exact real_io_good|]. split; [reflexivity|].
  split; [eexists; eexists; reflexivity|]. split; [reflexivity|].
  split; [exists [lit "f"]; split; left; reflexivity|].
  split; [|now apply no_file_spec].
  exists (lit "queue"), (ex_dir_of (lit "f") [lit "queue"]), (lit "id:0").
  split; [right; right; left; reflexivity|]. split; [reflexivity|].
  split; [discriminate|]. split; [discriminate|]. split; [reflexivity|].
  unfold ex_target. apply lookup_insert.
Qed.
Print Assumptions C46_reset_all_wins_refuted.

(** Two targets consolidated with [--consolidate-all --reset-all]: the queue files
    arrive in the corpora, the output is gone. *)
Definition corpus_file (t : str) (b : bytes) : path := [lit "t"; lit "corpus"; lit "c::" ++ t; corpus_name b].
Definition has_file (m : fs) (p : path) (b : bytes) : bool :=
  match m !! p with Some (File c) => str_eqb c b | _ => false end.

Example C46_example :
  match consolidate_or_reset real_io ex_td None (set_flags true false true default_opts) ex_two ex_fs with
  | Some (m', h, Ret _) =>
      has_file m' (corpus_file (lit "f") (lit "A")) (lit "A") &&
      has_file m' (corpus_file (lit "g") (lit "B")) (lit "B") &&
      negb (exists_ m' [lit "t"; lit "afl"; lit "output"; lit "c::f"]) &&
      negb (exists_ m' [lit "t"; lit "afl"; lit "output"; lit "c::g"]) && Nat.eqb (length h) 2
  | _ => false
  end = true.
Proof. vm_compute. reflexivity. Qed.

(** C47: if consolidation fails the invocation fails, and nothing in any output
    directory, of any target, has changed. *)
Theorem C47_failed_consolidation_removes_nothing :
  forall s td id o ets m,
    io_ok s -> consolidates o -> result (consolidate s td id o ets m) <> Ret tt ->
    exists m' h r, consolidate_or_reset s td id o ets m = Some (m', h, r) /\ r <> Ret tt /\
      (forall k t d p, dir_from_target td id Output k t = Ret d -> under d p -> m' !! p = m !! p).
Proof.
  intros s td id o ets m Hs C N. rewrite consolidates_eq by exact C. rewrite seq_not_ret by exact N.
  destruct (consolidate_ok s Hs td id m o ets m (same_zone_refl td m)) as (Z & _).
  destruct (consolidate s td id o ets m) as [[m1 h1] r1]. unfold result, state in *. cbn [fst snd] in *.
  exists m1, h1, r1. split; [reflexivity|]. split; [exact N|].
  intros k t d p Ed U. apply Z. rewrite output_of_eq in Ed. injection Ed as <-.
  now apply output_in_zone in U.
Qed.
Print Assumptions C47_failed_consolidation_removes_nothing.

(** C47: and, unless a write failed half-way, every content-addressed corpus entry
    is still there; if one did, the entry's data is still in an output directory. *)
Theorem C47_corpus_kept :
  forall s td id o ets m m' h r d n b,
    io_ok s -> consolidates o -> no_collision_in m ->
    result (consolidate s td id o ets m) <> Ret tt ->
    consolidate_or_reset s td id o ets m = Some (m', h, r) ->
    content_addressed m d -> m !! (d ++ [n]) = Some (File b) ->
    ((forall m d x, i_wr s m d x = None) -> m' !! (d ++ [n]) = Some (File b)) /\
    (m' !! (d ++ [n]) = Some (File b) \/ exists k t p, selected ets k t /\ finding td id m' k t p b).
Proof.
  intros s td id o ets m m' h r d n b Hs C NC N E CA L.
  rewrite consolidates_eq in E by exact C. rewrite seq_not_ret in E by exact N.
  pose proof (consolidate_keeps s td id o ets m d n b Hs NC CA L) as K.
  injection E as E. rewrite E in K. cbn in K.
  destruct K as [K|((m1 & d1 & x & Wr) & _ & K)]; [auto|].
  split; [intros A; rewrite A in Wr; congruence|auto].
Qed.
Print Assumptions C47_corpus_kept.

(** C47: a target that was never fuzzed (one of its directories is missing) makes
    consolidation fail. *)
Theorem C47_never_fuzzed_fails :
  forall s td id o ets m k t sub d m' h r,
    io_ok s -> consolidates o -> selected ets k t ->
    In sub [lit "crashes"; lit "hangs"; lit "queue"] ->
    output_subdir td id sub k t = Ret d -> is_dir m d = false ->
    consolidate_or_reset s td id o ets m = Some (m', h, r) -> r <> Ret tt.
Proof.
  intros s td id o ets m k t sub d m' h r Hs C Sel Hsub Ed D E.
  pose proof (consolidate_missing s td id o ets m k t sub d Hs Sel Hsub Ed D) as N.
  rewrite consolidates_eq in E by exact C. rewrite seq_not_ret in E by exact N.
  injection E as E. rewrite E in N. exact N.
Qed.
Print Assumptions C47_never_fuzzed_fails.

(** C47, a write error does damage an existing corpus entry with the same contents
    (the write truncates it first): the entry is no longer in the corpus. *)
Definition full_disk : io := {|
  i_ls := i_ls real_io; i_rd := i_rd real_io; i_wr := fun _ _ _ => Some 0; i_rm := i_rm real_io |}.
Definition ex_corpus_fs : fs :=
  <[corpus_file (lit "f") (lit "A") := File (lit "A")]>
  (<[[lit "t"; lit "corpus"; lit "c::f"] := Dir]> (<[[lit "t"; lit "corpus"] := Dir]>
   (ex_target (lit "f") (lit "A") ex_base))).

(** C47: a write that fails half-way leaves an entry of the corpus truncated. *)
Theorem C47_write_error_keeps_corpus_refuted :
  exists s td id o ets m m' h r d n b,
    io_ok s /\ consolidates o /\ consolidate_or_reset s td id o ets m = Some (m', h, r) /\
    dir_from_target td id Corpus (lit "c") (lit "f") = Ret d /\
    m !! (d ++ [n]) = Some (File b) /\ m' !! (d ++ [n]) = Some (File []) /\ b <> [].
Proof.
  exists full_disk, ex_td, None, (set_cons default_opts), ex_one, ex_corpus_fs.
  assert (R : match consolidate_or_reset full_disk ex_td None (set_cons default_opts) ex_one ex_corpus_fs with
    Some (m', _, _) => has_file m' (corpus_file (lit "f") (lit "A")) [] | _ => false end = true)
    by (vm_compute; reflexivity).
  destruct (consolidate_or_reset full_disk ex_td None (set_cons default_opts) ex_one ex_corpus_fs)
    as [[[m' h] r]|]; [|discriminate R].
  exists m', h, r, [lit "t"; lit "corpus"; lit "c::f"], (corpus_name (lit "A")), (lit "A").
  split.
  { destruct real_io_ok as (A & B & D). split; [exact A|]. split; [exact B|exact D]. }
  split; [right; split; reflexivity|]. split; [reflexivity|]. split; [reflexivity|].
  split; [apply lookup_insert|]. split; [|discriminate].
  unfold has_file in R. change (corpus_file (lit "f") (lit "A")) with
    ([lit "t"; lit "corpus"; lit "c::f"] ++ [corpus_name (lit "A")]) in R.
  destruct (m' !! _) as [[c|]|]; try discriminate R. f_equal. f_equal. destruct c; [reflexivity|discriminate R].
Qed.
Print Assumptions C47_write_error_keeps_corpus_refuted.

(** The second target was never fuzzed: the first is consolidated, then the command
    fails; both outputs are as before. *)
Example C47_example :
  match consolidate_or_reset real_io ex_td None (set_flags true false true default_opts) ex_two
          (ex_target (lit "f") (lit "A") ex_base) with
  | Some (m', h, Err _) =>
      has_file m' (corpus_file (lit "f") (lit "A")) (lit "A") &&
      has_file m' (ex_dir_of (lit "f") [lit "queue"; lit "id:0"]) (lit "A") && Nat.eqb (length h) 1
  | _ => false
  end = true.
Proof. vm_compute. reflexivity. Qed.

(** C48: a successful reset removes exactly the selected targets' output directories. *)
Theorem C48_reset_exact :
  forall s td id o ets m m' h,
    io_ok s -> fs_wf m -> only_resets o ->
    consolidate_or_reset s td id o ets m = Some (m', h, Ret tt) ->
    forall p,
      ((exists k t d, selected ets k t /\ dir_from_target td id Output k t = Ret d /\ under d p) -> m' !! p = None) /\
      (~ (exists k t d, selected ets k t /\ dir_from_target td id Output k t = Ret d /\ under d p) -> m' !! p = m !! p).
Proof.
  intros s td id o ets m m' h Hs W O E p. rewrite only_resets_eq in E by exact O. injection E as E.
  assert (Cl : closed (outputs td id ets) m).
  { apply closed_wf; [|exact W]. intros d Hd. destruct (outputs_zone _ _ _ _ Hd) as (k & t & ->).
    apply output_of_nonempty. }
  destruct (reset_all_ok s Hs td id o ets m Cl) as [P Q]. rewrite E in P, Q.
  unfold state, result in *. cbn in P, Q. destruct (Q eq_refl) as [_ Q']. split.
  - intros (k & t & d & Sel & Ed & U). apply (Q' d p); [exists k, t; auto|exact U].
  - intros N. destruct (P p) as [F|[(d & (k & t & Sel & Ed) & U) _]]; [exact F|].
    exfalso. apply N. exists k, t, d. auto.
Qed.
Print Assumptions C48_reset_exact.

(** C48: whatever happens, nothing outside the selected output directories changes. *)
Theorem C48_reset_contained :
  forall s td id o ets m m' h r,
    io_ok s -> fs_wf m -> only_resets o ->
    consolidate_or_reset s td id o ets m = Some (m', h, r) ->
    forall p, m' !! p = m !! p \/
      ((exists k t d, selected ets k t /\ dir_from_target td id Output k t = Ret d /\ under d p) /\ m' !! p = None).
Proof.
  intros s td id o ets m m' h r Hs W O E p. rewrite only_resets_eq in E by exact O. injection E as E.
  assert (Cl : closed (outputs td id ets) m).
  { apply closed_wf; [|exact W]. intros d Hd. destruct (outputs_zone _ _ _ _ Hd) as (k & t & ->).
    apply output_of_nonempty. }
  destruct (reset_all_ok s Hs td id o ets m Cl) as [P _]. rewrite E in P.
  unfold state in P. cbn in P.
  destruct (P p) as [F|[(d & (k & t & Sel & Ed) & U) F]]; [now left|].
  right. split; [exists k, t, d; auto|exact F].
Qed.
Print Assumptions C48_reset_contained.

(** C48: in particular every corpus (and every generic-arguments directory), and the
    output of every target that is not selected, is unchanged. *)
Theorem C48_others_untouched :
  forall s td id o ets m m' h r kd k t d p,
    io_ok s -> fs_wf m -> only_resets o ->
    consolidate_or_reset s td id o ets m = Some (m', h, r) ->
    ~ In ":"%char k -> (forall k' t', selected ets k' t' -> ~ In ":"%char k') ->
    dir_from_target td id kd k t = Ret d -> under d p ->
    (kd = Output -> forall k' t', selected ets k' t' ->
       replace_char "-"%char "_"%char k' = replace_char "-"%char "_"%char k -> t' <> t) ->
    m' !! p = m !! p.
Proof.
  intros s td id o ets m m' h r kd k t d p Hs W O E Nk Ne Ed U Un.
  destruct (C48_reset_contained s td id o ets m m' h r Hs W O E p) as [F|[(k' & t' & d' & Sel & Ed' & U') _]];
    [exact F|exfalso].
  destruct (dirs_disjoint td id kd k t id Output k' t' d d' p Nk (Ne _ _ Sel) Ed Ed' U U') as (_ & -> & Ek & ->).
  exact (Un eq_refl k' t' Sel (eq_sym Ek) eq_refl).
Qed.
Print Assumptions C48_others_untouched.

(** C48: a missing output directory is not an error: reset succeeds whenever every
    selected output is missing or a directory. *)
Theorem C48_reset_succeeds :
  forall s td id o ets m,
    io_ok s -> io_good s -> only_resets o -> (o_reset_all o = true \/ exactly_one ets) ->
    (forall k t d, selected ets k t -> dir_from_target td id Output k t = Ret d ->
                   m !! d = None \/ m !! d = Some Dir) ->
    exists m' h, consolidate_or_reset s td id o ets m = Some (m', h, Ret tt).
Proof.
  intros s td id o ets m Hs G O OO H. rewrite only_resets_eq by exact O.
  pose proof (reset_succeeds s td id o ets m Hs G OO H) as R.
  destruct (reset s td id o ets m) as [[m1 h1] r1]. unfold result in R. cbn in R. subst. eauto.
Qed.
Print Assumptions C48_reset_succeeds.

Example C48_example :
  match consolidate_or_reset real_io ex_td None (set_flags false true false default_opts) ex_one ex_fs with
  | Some (m', h, Ret _) =>
      negb (exists_ m' [lit "t"; lit "afl"; lit "output"; lit "c::f"]) &&
      has_file m' (ex_dir_of (lit "g") [lit "queue"; lit "id:0"]) (lit "B")
  | _ => false
  end = true /\
  match consolidate_or_reset real_io ex_td None (set_flags false true false default_opts) ex_one ex_base with
  | Some (_, _, Ret _) => true | _ => false end = true.
Proof. split; vm_compute; reflexivity. Qed.

(** C49: [--consolidate-all] without [--reset-all] never succeeds unless exactly one
    executable with exactly one target is selected; if consolidating succeeds, it
    crashes afterwards, with the outputs still there. *)
Theorem C49_consolidate_all_crashes :
  forall s td id o ets m m' h r,
    io_ok s -> o_consolidate_all o = true -> o_reset_all o = false -> ~ exactly_one ets ->
    consolidate_or_reset s td id o ets m = Some (m', h, r) ->
    r <> Ret tt /\
    (result (consolidate s td id o ets m) = Ret tt -> r = Panic) /\
    (forall k t d p, dir_from_target td id Output k t = Ret d -> under d p -> m' !! p = m !! p).
Proof.
  intros s td id o ets m m' h r Hs CA RA N E.
  rewrite consolidates_eq in E by (left; exact CA). injection E as E.
  destruct (consolidate_ok s Hs td id m o ets m (same_zone_refl td m)) as (Z & _).
  assert (RP : forall m1, reset s td id o ets m1 = (m1, [], Panic)).
  { intros m1. unfold reset, check. rewrite RA. cbn [orb].
    destruct (Nat.eqb_spec (length ets) 1) as [L|L]; [|reflexivity].
    destruct ets as [|[k ts] [|]]; try discriminate L. cbn.
    destruct (Nat.eqb_spec (length ts) 1) as [L'|L']; [|reflexivity].
    destruct ts as [|t [|]]; try discriminate L'. exfalso. apply N. exists k, t. reflexivity. }
  destruct (consolidate s td id o ets m) as [[m1 h1] [[]|e|]]; cbn [seq] in E; unfold result, state in *; cbn [fst snd] in *.
  - rewrite RP in E. injection E as <- _ <-. split; [discriminate|]. split; [reflexivity|].
    intros k t d p Ed U. apply Z. rewrite output_of_eq in Ed. injection Ed as <-. now apply output_in_zone in U.
  - injection E as <- _ <-. split; [discriminate|]. split; [discriminate|].
    intros k t d p Ed U. apply Z. rewrite output_of_eq in Ed. injection Ed as <-. now apply output_in_zone in U.
  - injection E as <- _ <-. split; [discriminate|]. split; [discriminate|].
    intros k t d p Ed U. apply Z. rewrite output_of_eq in Ed. injection Ed as <-. now apply output_in_zone in U.
Qed.
Print Assumptions C49_consolidate_all_crashes.

(** C49: hence "--consolidate-all moves all targets' findings" fails on two healthy targets. *)
Theorem C49_consolidate_all_works_refuted :
  exists s td id o ets m m' h,
    io_ok s /\ io_good s /\ o_consolidate_all o = true /\
    (forall k t, selected ets k t -> consolidatable td id m k t) /\
    consolidate_or_reset s td id o ets m = Some (m', h, Panic) /\ length h = 2.
Proof.
  exists real_io, ex_td, None, (set_flags true false false default_opts), ex_two, ex_fs.
  assert (R : match consolidate_or_reset real_io ex_td None (set_flags true false false default_opts) ex_two ex_fs with
    Some (_, h, Panic) => Nat.eqb (length h) 2 | _ => false end = true) by (vm_compute; reflexivity).
  destruct (consolidate_or_reset real_io ex_td None (set_flags true false false default_opts) ex_two ex_fs)
    as [[[m' h] [u|e|]]|]; try discriminate R.
  exists m', h. split; [exact real_io_ok|]. split; [exact real_io_good|]. split; [reflexivity|].
  split; [|split; [reflexivity|now apply Nat.eqb_eq]].
  assert (Big : forall (m : fs) (d : path), is_dir m d = true ->
      forallb (fun pn : path * node => match child d pn.1, pn.2 with
        | Some n, Dir => str_eqb n (lit "README.txt") || str_eqb n (lit ".state") | _, _ => true end) (map_to_list m) = true ->
      is_dir m d = true /\ forall n, n <> lit "README.txt" -> n <> lit ".state" -> m !! (d ++ [n]) <> Some Dir).
  { intros m d D F. split; [exact D|]. intros n N1 N2 L. rewrite forallb_forall in F.
    apply elem_of_map_to_list, elem_of_list_In, F in L. cbn in L.
    rewrite (proj2 (child_some d (d ++ [n]) n) eq_refl) in L.
    apply orb_true_iff in L as [L|L]; apply str_eqb_eq in L; contradiction. }
  assert (Us : forall (m : fs) (d : path),
      forallb (fun pn : path * node => match pn.2 with
        | File _ => negb (is_prefix pn.1 d) | Dir => negb (is_prefix d pn.1) || Nat.eqb (length pn.1) (length d) end) (map_to_list m) = true ->
      usable m d).
  { intros m d F. rewrite forallb_forall in F. split.
    - intros q b P L. apply elem_of_map_to_list, elem_of_list_In, F in L. cbn in L. rewrite P in L. discriminate L.
    - intros x L. apply elem_of_map_to_list, elem_of_list_In, F in L. cbn in L.
      assert (P : is_prefix d (d ++ [corpus_name x]) = true) by (apply is_prefix_spec; eexists; reflexivity).
      rewrite P in L. cbn in L. apply Nat.eqb_eq in L. rewrite app_length in L. cbn in L. lia. }
  assert (Both : forall t, t = lit "f" \/ t = lit "g" -> consolidatable ex_td None ex_fs (lit "c") t).
  { intros t Ht. split.
    - intros sub d Hsub Ed.
      destruct Ht as [->| ->]; destruct Hsub as [<-|[<-|[<-|[]]]]; injection Ed as <-;
        apply Big; vm_compute; reflexivity.
    - intros d Ed. destruct Ht as [->| ->]; injection Ed as <-; apply Us; vm_compute; reflexivity. }
  intros k t (ts & [[= <- <-]|[]] & [<-|[<-|[]]]); apply Both; auto.
Qed.
Print Assumptions C49_consolidate_all_works_refuted.

(** C49: [--consolidate] and [--reset] crash before touching anything unless exactly
    one executable with exactly one target is selected. *)
Theorem C49_single_target_only :
  forall s td id o ets m,
    o_consolidate_all o = false -> o_reset_all o = false -> o_consolidate o = true \/ o_reset o = true ->
    ~ exactly_one ets ->
    consolidate_or_reset s td id o ets m = Some (m, [], Panic).
Proof.
  intros s td id o ets m CA RA CR N. unfold consolidate_or_reset. rewrite CA, RA. cbn [orb].
  assert (RP : reset s td id o ets m = (m, [], Panic) /\ consolidate s td id o ets m = (m, [], Panic)).
  { unfold reset, consolidate, check. rewrite RA, CA. cbn [orb].
    destruct (Nat.eqb_spec (length ets) 1) as [L|L]; [|auto].
    destruct ets as [|[k ts] [|]]; try discriminate L. cbn.
    destruct (Nat.eqb_spec (length ts) 1) as [L'|L']; [|auto].
    destruct ts as [|t [|]]; try discriminate L'. exfalso. apply N. exists k, t. reflexivity. }
  destruct RP as [R1 R2]. rewrite R2.
  destruct (o_consolidate o); cbn [orb]; [reflexivity|].
  destruct CR as [CR|CR]; [discriminate|]. rewrite CR. cbn [seq]. rewrite R1. reflexivity.
Qed.
Print Assumptions C49_single_target_only.

Example C49_example :
  match consolidate_or_reset real_io ex_td None (set_flags true false false default_opts) [] ex_fs with
  | Some (_, [], Panic) => true | _ => false end = true /\
  match consolidate_or_reset real_io ex_td None (set_flags true false false default_opts) ex_one ex_fs with
  | Some (_, [_], Ret _) => true | _ => false end = true.
Proof. split; vm_compute; reflexivity. Qed.
