(** Properties C01-C06: recording. *)
From Coq Require Import List Ascii String Bool Arith Lia.
From stdpp Require Import gmap strings list.
From Verif Require Import Base Dirs Sha1 Fs Write WriteConc.
Import ListNotations.

(** C01: after any history of recordings (successful or not, into any directories)
    every file of a directory is named by the lower-case hex SHA-1 of its contents,
    if that was so before (for instance if the directory did not exist). *)
Theorem C01_content_addressed :
  forall (m : fs) (h : list (path * bytes)) (dir : path),
    content_addressed m dir -> content_addressed (record_all m h) dir.
Proof. exact record_all_content_addressed. Qed.
Print Assumptions C01_content_addressed.

(** C01, from nothing: in a file system where [dir] has no files, after any history. *)
Theorem C01_content_addressed_fresh :
  forall (m : fs) (h : list (path * bytes)) (dir : path) n b,
    (forall n b, m !! (dir ++ [n]) <> Some (File b)) ->
    record_all m h !! (dir ++ [n]) = Some (File b) ->
    length n = 40%nat /\ Forall is_hex_char n /\ unhex n = Some (sha1 b).
Proof.
  intros m h dir n b E. apply record_all_content_addressed.
  intros n' b' L. destruct (E n' b' L).
Qed.
Print Assumptions C01_content_addressed_fresh.

Definition ex_dir : path := [lit "corpus"; lit "t"].
Definition ex_h : list (path * bytes) := [(ex_dir, lit "a"); (ex_dir, lit "b"); (ex_dir, lit "a")].

Example C01_example :
  record_all ∅ ex_h !! (ex_dir ++ [lit "e9d71f5ee7c92d6dc9e92ffdad17b8bd49418f98"]) = Some (File (lit "b")).
Proof. vm_compute. reflexivity. Qed.

(** C02: every recorded datum can be read back, unless another datum recorded in
    the same directory has the same digest (in which case that one is there);
    all recordings succeed. *)
Theorem C02_recorded_readable :
  forall (m : fs) (h : list (path * bytes)),
    (forall d x, In (d, x) h -> usable m d) -> separate h ->
    Forall (fun ok => ok = true) (record_results m h) /\
    forall d x, In (d, x) h ->
      exists x', In (d, x') h /\ sha1 x' = sha1 x /\
        fs_read (record_all m h) (d ++ [corpus_name x]) = Some x'.
Proof.
  intros m h U S. destruct (record_all_spec m h U S) as (A & _ & _ & D). split; [exact D|].
  intros d x I. destruct (A d x I) as (x' & I' & E & L). exists x'.
  split; [exact I'|]. split; [now apply corpus_name_eq|]. unfold fs_read. now rewrite L.
Qed.
Print Assumptions C02_recorded_readable.

(** C02: for any history whatsoever, a file afterwards was there before with the
    same contents or is a recorded datum in its place; new directories are only
    those leading to a recording directory. *)
Theorem C02_nothing_invented :
  forall (m : fs) (h : list (path * bytes)) p n,
    record_all m h !! p = Some n ->
    m !! p = Some n \/
    (n = Dir /\ exists d x, In (d, x) h /\ under p d) \/
    (exists d x, In (d, x) h /\ n = File x /\ p = d ++ [corpus_name x]).
Proof.
  intros m h p n H. apply record_all_lookup in H as [H|[(E & _ & d & x & I & P)|H]]; auto.
  right; left. split; [exact E|]. exists d, x. split; [exact I|]. now apply is_prefix_spec.
Qed.
Print Assumptions C02_nothing_invented.

(** C02: for any history whatsoever, what is not a recorded file is untouched. *)
Theorem C02_frame :
  forall (m : fs) (h : list (path * bytes)) p n,
    m !! p = Some n -> (forall d x, In (d, x) h -> p <> d ++ [corpus_name x]) ->
    record_all m h !! p = Some n.
Proof. exact record_all_keep. Qed.
Print Assumptions C02_frame.

Lemma ex_usable (m : fs) : m = ∅ -> usable m ex_dir.
Proof.
  intros ->. split.
  - intros q b _ H. rewrite lookup_empty in H. discriminate.
  - intros x H. rewrite lookup_empty in H. discriminate.
Qed.

Lemma ex_separate : separate ex_h.
Proof. apply (separate_single ex_dir). intros e [<-|[<-|[<-|[]]]]; reflexivity. Qed.

Example C02_example :
  (forall d x, In (d, x) ex_h -> usable ∅ d) /\ separate ex_h /\
  fs_read (record_all ∅ ex_h) (ex_dir ++ [corpus_name (lit "a")]) = Some (lit "a").
Proof.
  split; [|split].
  - intros d x [[= <- <-]|[[= <- <-]|[[= <- <-]|[]]]]; now apply ex_usable.
  - exact ex_separate.
  - vm_compute. reflexivity.
Qed.

(** C03: the outcome depends only on the set of recordings. *)
Theorem C03_order_and_multiplicity :
  forall (m : fs) (h1 h2 : list (path * bytes)),
    (forall e, In e h1 <-> In e h2) ->
    (forall d x, In (d, x) h1 -> usable m d) -> separate h1 -> no_collision h1 ->
    record_all m h1 = record_all m h2.
Proof. exact record_all_same. Qed.
Print Assumptions C03_order_and_multiplicity.

(** C03: recording the same datum again changes nothing, whatever the state. *)
Theorem C03_idempotent :
  forall (m : fs) (dir : path) (x : bytes),
    write_data (write_data m dir x).1 dir x = write_data m dir x.
Proof. exact write_data_idem. Qed.
Print Assumptions C03_idempotent.

Example C03_example :
  (forall e, In e ex_h <-> In e [(ex_dir, lit "b"); (ex_dir, lit "a")]) /\
  no_collision ex_h /\
  record_all ∅ ex_h = record_all ∅ [(ex_dir, lit "b"); (ex_dir, lit "a")].
Proof.
  assert (S : forall e, In e ex_h <-> In e [(ex_dir, lit "b"); (ex_dir, lit "a")]).
  { intros e. simpl. tauto. }
  assert (N : no_collision ex_h).
  { intros d x d' x' I I' E.
    assert (Hx : x = lit "a" \/ x = lit "b").
    { destruct I as [[= <- <-]|[[= <- <-]|[[= <- <-]|[]]]]; auto. }
    assert (Hx' : x' = lit "a" \/ x' = lit "b").
    { destruct I' as [[= <- <-]|[[= <- <-]|[[= <- <-]|[]]]]; auto. }
    destruct Hx as [-> | ->], Hx' as [-> | ->]; auto; exfalso; revert E; vm_compute; discriminate. }
  split; [exact S|]. split; [exact N|].
  apply record_all_same; auto.
  - intros d x [[= <- <-]|[[= <- <-]|[[= <- <-]|[]]]]; now apply ex_usable.
  - exact ex_separate.
Qed.

(** C04: recorders running concurrently, under any interleaving of their system
    calls: once all have returned successfully, every datum is intact. *)
Theorem C04_concurrent_intact :
  forall (m : fs) (h : list (path * bytes)) (sched : list (nat * action)),
    no_collision h ->
    (forall r, r ∈ (srun (start m h) sched).2 -> r_st r = SDone) ->
    forall d x, In (d, x) h ->
      fs_read (srun (start m h) sched).1 (d ++ [corpus_name x]) = Some x.
Proof.
  intros m h sched N D d x I. unfold fs_read. now rewrite (conc_intact m h sched N D d x I).
Qed.
Print Assumptions C04_concurrent_intact.

(** C04: without injected failures no recorder fails, and each system call of an
    unfinished recorder makes progress, so all return after finitely many. *)
Theorem C04_no_failure :
  forall (m : fs) (h : list (path * bytes)) (sched : list (nat * action)) r,
    (forall d x, In (d, x) h -> usable m d) -> separate h -> Forall calm sched ->
    r ∈ (srun (start m h) sched).2 -> r_st r <> SFailed /\ r_st r <> SKilled.
Proof. exact conc_no_failure. Qed.
Print Assumptions C04_no_failure.

(** C04: every step of a recorder that is not finished brings it closer to its end. *)
Theorem C04_progress :
  forall (m : fs) (r : recorder) (a : action),
    ~ (r_st r = SDone \/ dead r) -> (work (rstep m r a).2 < work r)%nat.
Proof. exact rstep_progress. Qed.
Print Assumptions C04_progress.

(** C04: nothing else is touched, even by killed or failing recorders. *)
Theorem C04_frame :
  forall (m : fs) (h : list (path * bytes)) (sched : list (nat * action)) p n,
    m !! p = Some n -> (forall d x, In (d, x) h -> p <> d ++ [corpus_name x]) ->
    (srun (start m h) sched).1 !! p = Some n.
Proof. exact srun_frame. Qed.
Print Assumptions C04_frame.

(** Two recorders of the same three bytes; the second truncates while the first is
    in the middle of writing, which leaves a gap for a while. *)
Definition ex_two : list (path * bytes) := [([lit "c"], lit "abc"); ([lit "c"], lit "abc")].
Definition ex_gap : list (nat * action) :=
  [(0, Go 0); (0, Go 0); (0, Go 0); (0, Go 0); (1, Go 0); (1, Go 0); (1, Go 0); (0, Go 5)]%nat.
Definition ex_rest : list (nat * action) := [(1, Go 0); (1, Go 3); (0, Go 0); (1, Go 0)]%nat.

Example C04_example :
  fs_read (srun (start ∅ ex_two) ex_gap).1 [lit "c"; corpus_name (lit "abc")]
    = Some [zero; "b"%char; "c"%char] /\
  map r_st (srun (start ∅ ex_two) (ex_gap ++ ex_rest)).2 = [SDone; SDone] /\
  fs_read (srun (start ∅ ex_two) (ex_gap ++ ex_rest)).1 [lit "c"; corpus_name (lit "abc")] = Some (lit "abc").
Proof. vm_compute. auto. Qed.

(** C05: a recorder that is alone, killed or failing at any point, leaves the file
    as it was or holding a prefix of the datum. *)
Theorem C05_killed_leaves_prefix :
  forall (m : fs) (dir : path) (x : bytes) (sched : list (nat * action)),
    let m' := (srun (start m [(dir, x)]) sched).1 in
    m' !! (dir ++ [corpus_name x]) = m !! (dir ++ [corpus_name x]) \/
    exists off, m' !! (dir ++ [corpus_name x]) = Some (File (firstn off x)).
Proof. exact single_run. Qed.
Print Assumptions C05_killed_leaves_prefix.

(** C05: recording is not atomic: a killed recorder can leave a file whose name is
    not the digest of its contents. *)
Theorem C05_atomic_refuted :
  exists (dir : path) (x b : bytes) (sched : list (nat * action)),
    (srun (start ∅ [(dir, x)]) sched).1 !! (dir ++ [corpus_name x]) = Some (File b) /\
    corpus_name b <> corpus_name x.
Proof.
  exists [lit "c"], (lit "abc"), (lit "a"), [(0, Go 0); (0, Go 0); (0, Go 0); (0, Go 0); (0, Kill)]%nat.
  vm_compute. split; [reflexivity|discriminate].
Qed.
Print Assumptions C05_atomic_refuted.

(** C05: with several recorders of one datum even the prefix property fails when
    they are killed ... *)
Theorem C05_concurrent_prefix_refuted :
  exists (dir : path) (x b : bytes) (sched : list (nat * action)),
    (srun (start ∅ [(dir, x); (dir, x)]) sched).1 !! (dir ++ [corpus_name x]) = Some (File b) /\
    forall off, b <> firstn off x.
Proof.
  exists [lit "c"], (lit "abc"), [zero; "b"%char; "c"%char], (ex_gap ++ [(0, Kill); (1, Kill)])%nat.
  split; [vm_compute; reflexivity|].
  intros [|off]; discriminate.
Qed.
Print Assumptions C05_concurrent_prefix_refuted.

(** ... but every byte is the datum's or zero, and the file is not too long. *)
Theorem C05_concurrent_bytes :
  forall (m : fs) (h : list (path * bytes)) (sched : list (nat * action)) r,
    no_collision h -> r ∈ (srun (start m h) sched).2 -> opened r ->
    exists b, (srun (start m h) sched).1 !! r_path r = Some (File b) /\
      (length b <= length (r_data r))%nat /\
      forall i c, nth_error b i = Some c -> c = zero \/ nth_error (r_data r) i = Some c.
Proof. exact conc_bytes. Qed.
Print Assumptions C05_concurrent_bytes.

(** C05: whatever happened, recording the datum again repairs the file. *)
Theorem C05_recording_again_repairs :
  forall (m : fs) (h : list (path * bytes)) (sched : list (nat * action)) d x,
    (forall d x, In (d, x) h -> usable m d) -> separate h -> In (d, x) h ->
    let m' := (srun (start m h) sched).1 in
    (write_data m' d x).2 = true /\ fs_read (write_data m' d x).1 (d ++ [corpus_name x]) = Some x.
Proof.
  intros m h sched d x U S I. destruct (conc_repair m h sched d x U S I) as [A B].
  simpl in *. unfold fs_read. rewrite B. auto.
Qed.
Print Assumptions C05_recording_again_repairs.

Example C05_example :
  let m' := (srun (start ∅ ex_two) (ex_gap ++ [(0, Kill); (1, Kill)])%nat).1 in
  fs_read m' [lit "c"; corpus_name (lit "abc")] = Some [zero; "b"%char; "c"%char] /\
  fs_read (write_data m' [lit "c"] (lit "abc")).1 [lit "c"; corpus_name (lit "abc")] = Some (lit "abc").
Proof. vm_compute. auto. Qed.

(** C06: the name of a corpus file. *)
Theorem C06_name :
  forall x, length (corpus_name x) = 40%nat /\ Forall is_hex_char (corpus_name x) /\
    unhex (corpus_name x) = Some (sha1 x) /\ ~ In "/"%char (corpus_name x).
Proof.
  intros x. destruct (corpus_name_spec x) as (A & B & C). repeat split; try assumption.
  intros I. rewrite Forall_forall in B. specialize (B "/"%char). apply elem_of_list_In in I. apply B in I.
  revert I. clear. unfold is_hex_char. vm_compute. intuition discriminate.
Qed.
Print Assumptions C06_name.

(** C06: names are equal exactly for equal digests. *)
Theorem C06_name_distinct :
  forall x y, corpus_name x = corpus_name y <-> sha1 x = sha1 y.
Proof. exact corpus_name_eq. Qed.
Print Assumptions C06_name_distinct.

(** C06: no corpus file is skipped by display, replay and consolidation. *)
Theorem C06_not_skipped :
  forall x, corpus_name x <> lit "README.txt" /\ corpus_name x <> lit ".state".
Proof. intros x. split; apply corpus_name_neq; simpl; discriminate. Qed.
Print Assumptions C06_not_skipped.

Example C06_example : corpus_name (lit "abc") = lit "a9993e364706816aba3e25717850c26c9cd0d89d".
Proof. vm_compute. reflexivity. Qed.
