(** Consolidating and resetting fuzzing data. *)
From Coq Require Import List Ascii String Bool Arith Lia.
From stdpp Require Import gmap strings.
From Verif Require Import Base Dirs Sha1 Fs Write Opts.
Import ListNotations.
Opaque sha1 corpus_name.

(** A write of a corpus file that stops after [k] bytes, because of an I/O error
    or because the process died: [std::fs::write] truncates first. *)
Definition torn_write (m : fs) (dir : path) (data : bytes) (k : nat) : fs :=
  let m1 := (create_dir_all m dir).1 in
  match fs_write m1 (dir ++ [corpus_name data]) (firstn k data) with
  | Some m2 => m2
  | None => m1
  end.

(** What the operating system answers beyond what the file system determines.
    [i_ls]: the listing of a directory, [None] for a failing [read_dir], an entry
    [None] for an entry that cannot be read.  [i_rd]: the contents of a file or a
    failure.  [i_wr]: [Some k] if a write fails after [k] bytes.  [i_rm]: [Some m']
    if a removal fails leaving [m']. *)
Record io := {
  i_ls : fs -> path -> option (list (option str));
  i_rd : fs -> path -> option bytes;
  i_wr : fs -> path -> bytes -> option nat;
  i_rm : fs -> path -> option fs;
}.

(** The state, the recordings attempted so far, and the result. *)
Definition res := (fs * list (path * bytes) * outcome unit)%type.

(** [?] and sequencing. *)
Definition seq (r : res) (f : fs -> res) : res :=
  match r with
  | (m, h, Ret _) => match f m with (m', h', o) => (m', h ++ h', o) end
  | _ => r
  end.

(** A [for] loop whose body may return or panic. *)
Fixpoint for_each {A : Type} (f : A -> fs -> res) (l : list A) (m : fs) : res :=
  match l with
  | [] => (m, [], Ret tt)
  | a :: l' => seq (f a m) (for_each f l')
  end.

(** [assert!] followed by the rest. *)
Definition check (b : bool) (f : fs -> res) (m : fs) : res :=
  if b then f m else (m, [], Panic).

(** cargo-test-fuzz/src/lib.rs:789, 921 the two names that are not entries. *)
Definition skipped (n : str) : bool := str_eqb n (lit "README.txt") || str_eqb n (lit ".state").

Section Io.
  Variable s : io.
  Variables (td : path) (id : option str).

  (** cargo-test-fuzz/src/lib.rs:784-803, body of the innermost loop. *)
  Definition cons_entry (corpus dir : path) (n : option str) (m : fs) : res :=
    match n with
    | None => (m, [], Err (failed_for (lit "read_dir") dir))
    | Some n =>
        if skipped n then (m, [], Ret tt)
        else match i_rd s m (dir ++ [n]) with
             | None => (m, [], Err (failed_for (lit "read") (dir ++ [n])))
             | Some data =>
                 match i_wr s m corpus data with
                 | Some k => (torn_write m corpus data k, [], Err (failed_for (lit "test_fuzz::runtime::write_data") corpus))
                 | None =>
                     match write_data m corpus data with
                     | (m', true) => (m', [(corpus, data)], Ret tt)
                     | (m', false) => (m', [(corpus, data)], Err (failed_for (lit "test_fuzz::runtime::write_data") corpus))
                     end
                 end
             end
    end.

  (** cargo-test-fuzz/src/lib.rs:779-803, one of the three directories. *)
  Definition cons_dir (corpus dir : path) (m : fs) : res :=
    match i_ls s m dir with
    | None => (m, [], Err (failed_for (lit "read_dir") dir))
    | Some ns => for_each (cons_entry corpus dir) ns m
    end.

  (** A directory computation that may panic, used as in Rust: evaluated first. *)
  Definition with_dir (d : outcome path) (f : path -> fs -> res) (m : fs) : res :=
    match d with Ret p => f p m | Err e => (m, [], Err e) | Panic => (m, [], Panic) end.

  (** cargo-test-fuzz/src/lib.rs:773-803, one target. *)
  Definition cons_target (krate target : str) : fs -> res :=
    with_dir (dir_from_target td id Corpus krate target) (fun corpus =>
    with_dir (output_subdir td id (lit "crashes") krate target) (fun crashes =>
    with_dir (output_subdir td id (lit "hangs") krate target) (fun hangs =>
    with_dir (output_subdir td id (lit "queue") krate target) (fun queue =>
      for_each (cons_dir corpus) [crashes; hangs; queue])))).

  (** cargo-test-fuzz/src/lib.rs:767-808 [consolidate]; an executable is
      represented by its name. *)
  Definition consolidate (o : opts) (ets : list (str * list str)) : fs -> res :=
    check (o_consolidate_all o || (Nat.eqb (length ets) 1))
      (for_each (fun et => check (o_consolidate_all o || (Nat.eqb (length (snd et)) 1))
                             (for_each (cons_target (fst et)) (snd et))) ets).

  (** cargo-test-fuzz/src/lib.rs:816-827, one target. *)
  Definition reset_target (krate target : str) : fs -> res :=
    with_dir (dir_from_target td id Output krate target) (fun d m =>
      if exists_ m d then
        match i_rm s m d with
        | Some m' => (m', [], Err (failed_for (lit "remove_dir_all") d))
        | None => match remove_dir_all m d with
                  | Some m' => (m', [], Ret tt)
                  | None => (m, [], Err (failed_for (lit "remove_dir_all") d))
                  end
        end
      else (m, [], Ret tt)).

  (** cargo-test-fuzz/src/lib.rs:810-831 [reset]. *)
  Definition reset (o : opts) (ets : list (str * list str)) : fs -> res :=
    check (o_reset_all o || (Nat.eqb (length ets) 1))
      (for_each (fun et => check (o_reset_all o || (Nat.eqb (length (snd et)) 1))
                             (for_each (reset_target (fst et)) (snd et))) ets).

  (** cargo-test-fuzz/src/lib.rs:332-344, the part of [run_without_exit_code] for
      these options; [None] if it does not apply. *)
  Definition consolidate_or_reset (o : opts) (ets : list (str * list str)) (m : fs) : option res :=
    if o_consolidate_all o || o_reset_all o then
      Some (seq (if o_consolidate_all o then consolidate o ets m else (m, [], Ret tt)) (reset o ets))
    else if o_consolidate o || o_reset o then
      Some (seq (if o_consolidate o then consolidate o ets m else (m, [], Ret tt)) (reset o ets))
    else None.
End Io.

(** * Specification *)

(** Removing part of what is under one of the directories [D]. *)
Definition part_removed (D : path -> Prop) (m m' : fs) : Prop :=
  forall p, m' !! p = m !! p \/ (exists d, D d /\ under d p) /\ m' !! p = None.

(** The operating system does not lie: what it lists and reads is there; a failed
    removal removes nothing else.  Any operation may fail at any time. *)
Definition io_ok (s : io) : Prop :=
  (forall m d ns, i_ls s m d = Some (map Some ns) -> lists_dir m d ns) /\
  (forall m p b, i_rd s m p = Some b -> fs_read m p = Some b) /\
  (forall m d m', i_rm s m d = Some m' -> part_removed (eq d) m m').

(** Nothing fails that need not. *)
Definition io_good (s : io) : Prop :=
  (forall m d, i_ls s m d = None -> is_dir m d = false) /\
  (forall m d l, i_ls s m d = Some l -> exists ns, l = map Some ns) /\
  (forall m p, i_rd s m p = None -> fs_read m p = None) /\
  (forall m d x, i_wr s m d x = None) /\ (forall m d, i_rm s m d = None).

Definition selected (ets : list (str * list str)) (krate target : str) : Prop :=
  exists ts, In (krate, ts) ets /\ In target ts.

(** [b] is the contents of a crash, hang or queue file of a target, at path [p]. *)
Definition finding (td : path) (id : option str) (m : fs) (krate target : str) (p : path) (b : bytes) : Prop :=
  exists sub d n,
    In sub [lit "crashes"; lit "hangs"; lit "queue"] /\
    output_subdir td id sub krate target = Ret d /\
    n <> lit "README.txt" /\ n <> lit ".state" /\
    p = d ++ [n] /\ m !! p = Some (File b).

Definition in_corpus (td : path) (id : option str) (m : fs) (krate target : str) (b : bytes) : Prop :=
  exists d n, dir_from_target td id Corpus krate target = Ret d /\ m !! (d ++ [n]) = Some (File b).

(** No two different files of the file system have the same digest. *)
Definition no_collision_in (m : fs) : Prop :=
  forall p p' b b', m !! p = Some (File b) -> m !! p' = Some (File b') -> sha1 b = sha1 b' -> b = b'.

(** Exactly one executable with exactly one target. *)
Definition exactly_one (ets : list (str * list str)) : Prop := exists k t, ets = [(k, [t])].

(** * Proofs *)

Definition state (r : res) : fs := fst (fst r).
Definition hist (r : res) : list (path * bytes) := snd (fst r).
Definition result (r : res) : outcome unit := snd r.

Lemma write_data_frame m d x p :
  is_prefix p d = false -> p <> d ++ [corpus_name x] -> (write_data m d x).1 !! p = m !! p.
Proof.
  intros P N. unfold write_data.
  destruct (fs_write _ _ _) as [m2|] eqn:W; simpl.
  - apply fs_write_some in W as (-> & _). rewrite lookup_insert_ne by congruence.
    now apply create_dir_all_frame.
  - now apply create_dir_all_frame.
Qed.

Lemma torn_write_frame m d x k p :
  is_prefix p d = false -> p <> d ++ [corpus_name x] -> torn_write m d x k !! p = m !! p.
Proof.
  intros P N. unfold torn_write.
  destruct (fs_write _ _ _) as [m2|] eqn:W; simpl.
  - apply fs_write_some in W as (-> & _). rewrite lookup_insert_ne by congruence.
    now apply create_dir_all_frame.
  - now apply create_dir_all_frame.
Qed.

Lemma torn_write_keep m d x k p n :
  m !! p = Some n -> p <> d ++ [corpus_name x] -> torn_write m d x k !! p = Some n.
Proof.
  intros H N. unfold torn_write.
  destruct (fs_write _ _ _) as [m2|] eqn:W; simpl.
  - apply fs_write_some in W as (-> & _). rewrite lookup_insert_ne by congruence.
    now apply create_dir_all_keep.
  - now apply create_dir_all_keep.
Qed.

Lemma record_all_app m h1 h2 : record_all m (h1 ++ h2) = record_all (record_all m h1) h2.
Proof. revert m; induction h1 as [|[d x] h IH]; intros m; simpl; auto. Qed.

(** What one step of the loops guarantees. *)
Definition step_ok (s : io) (I : fs -> Prop) (F : path * bytes -> Prop) (m : fs) (r : res) : Prop :=
  I (state r) /\ (forall w, In w (hist r) -> F w) /\
  (result r = Ret tt -> state r = record_all m (hist r) /\ (forall w, F w -> In w (hist r)) /\
                        Forall (fun ok => ok = true) (record_results m (hist r))) /\
  (state r = record_all m (hist r) \/
   exists d x k, F (d, x) /\ state r = torn_write (record_all m (hist r)) d x k /\
                 exists m1, i_wr s m1 d x = Some k).

Lemma record_results_app m h1 h2 :
  record_results m (h1 ++ h2) = record_results m h1 ++ record_results (record_all m h1) h2.
Proof. revert m; induction h1 as [|[d x] h IH]; intros m; simpl; congruence. Qed.

Lemma for_each_ok {A : Type} (s : io) (I : fs -> Prop) (F : A -> path * bytes -> Prop) f l :
  (forall a m, In a l -> I m -> step_ok s I (F a) m (f a m)) ->
  forall m, I m -> step_ok s I (fun w => exists a, In a l /\ F a w) m (for_each f l m).
Proof.
  induction l as [|a l IH]; intros Hf m Hm; simpl.
  - unfold step_ok; cbn. split; [exact Hm|]. split; [tauto|]. split; [|auto].
    intros _. split; [reflexivity|]. split; [intros w (a & [] & _)|constructor].
  - destruct (Hf a m (or_introl eq_refl) Hm) as (A1 & A2 & A3 & A4).
    destruct (f a m) as [[m1 h1] o1]; unfold state, hist, result in *; cbn [fst snd] in *.
    assert (Hf' : forall a m, In a l -> I m -> step_ok s I (F a) m (f a m)) by (intros; apply Hf; [right|]; auto).
    destruct o1 as [[]|e|]; cbn [seq].
    + specialize (A3 eq_refl). destruct A3 as (-> & A3 & A5). clear A4.
      specialize (IH Hf' _ A1). destruct (for_each f l (record_all m h1)) as [[m2 h2] o2].
      destruct IH as (B1 & B2 & B3 & B4). unfold state, hist, result in *; cbn [fst snd] in *.
      unfold step_ok, state, hist, result; cbn [fst snd].
      rewrite record_all_app. split; [exact B1|]. split; [|split].
      * intros w Hw. apply in_app_iff in Hw as [Hw|Hw].
        -- exists a. split; [now left|auto].
        -- destruct (B2 w Hw) as (b & Hb & Fb). exists b. split; [now right|exact Fb].
      * intros E. destruct (B3 E) as (C1 & C2 & C3). split; [exact C1|]. split.
        -- intros w (b & [<-|Hb] & Fb); apply in_app_iff; [left; auto|right; apply C2; eauto].
        -- rewrite record_results_app. apply Forall_app. auto.
      * destruct B4 as [B4|(d & x & k & (b & Hb & Fb) & B4)]; [now left|right].
        exists d, x, k. split; [exists b; split; [now right|exact Fb]|exact B4].
    + unfold step_ok, state, hist, result; cbn [fst snd]. split; [exact A1|]. split.
      * intros w Hw. exists a. split; [now left|auto].
      * split; [discriminate|]. destruct A4 as [A4|(d & x & k & Fx & A4)]; [now left|right].
        exists d, x, k. split; [|exact A4]. exists a. split; [now left|exact Fx].
    + unfold step_ok, state, hist, result; cbn [fst snd]. split; [exact A1|]. split.
      * intros w Hw. exists a. split; [now left|auto].
      * split; [discriminate|]. destruct A4 as [A4|(d & x & k & Fx & A4)]; [now left|right].
        exists d, x, k. split; [|exact A4]. exists a. split; [now left|exact Fx].
Qed.

Lemma step_ok_ext (s : io) (I : fs -> Prop) (F G : path * bytes -> Prop) m r :
  (forall w, F w <-> G w) -> step_ok s I F m r -> step_ok s I G m r.
Proof.
  intros E (A1 & A2 & A3 & A4). split; [exact A1|]. split; [intros w H; apply E; auto|]. split.
  - intros H. destruct (A3 H) as (B1 & B2 & B3). split; [exact B1|]. split; [|exact B3]. intros w G'. apply B2, E, G'.
  - destruct A4 as [A4|(d & x & k & Fx & A4)]; [auto|]. right. exists d, x, k. split; [now apply E|exact A4].
Qed.

Lemma step_ok_none (s : io) (I : fs -> Prop) (F : path * bytes -> Prop) m o : I m -> o <> Ret tt -> step_ok s I F m (m, [], o).
Proof. intros H N. unfold step_ok; cbn. split; [exact H|]. split; [tauto|]. split; [contradiction|auto]. Qed.

Section Spec.
  Variable s : io.
  Hypothesis Hs : io_ok s.
  Variables (td : path) (id : option str).

  (** Where afl-fuzz's output lives. *)
  Definition zone : path := td ++ [lit "afl"].

  Definition corpus_of (krate target : str) : path :=
    td ++ [path_segment id (lit "corpus"); path_from_target krate target].
  Definition output_of (krate target : str) : path :=
    zone ++ [path_segment id (lit "output"); path_from_target krate target].

  Lemma corpus_of_eq krate target : dir_from_target td id Corpus krate target = Ret (corpus_of krate target).
  Proof. rewrite dir_from_target_eq. reflexivity. Qed.
  Lemma output_of_eq krate target : dir_from_target td id Output krate target = Ret (output_of krate target).
  Proof. rewrite dir_from_target_eq. reflexivity. Qed.
  Lemma output_sub_eq sub krate target :
    output_subdir td id sub krate target = Ret (output_of krate target ++ [lit "default"; sub]).
  Proof.
    unfold output_subdir. rewrite output_of_eq. simpl. unfold pjoin. now rewrite <- app_assoc.
  Qed.

  Lemma corpus_not_zone krate target r p :
    under zone p -> p <> corpus_of krate target ++ r.
  Proof.
    intros [q ->] E. unfold zone, corpus_of in E. rewrite <- !app_assoc in E.
    apply app_inv_head in E.
    exact (afl_segment id Corpus (f_equal (hd []) E)).
  Qed.

  Lemma zone_not_prefix krate target p :
    under zone p -> is_prefix p (corpus_of krate target) = false.
  Proof.
    intros H. apply not_under_is_prefix. intros [q E]. symmetry in E.
    destruct H as [q' ->]. unfold zone, corpus_of in E. rewrite <- !app_assoc in E.
    apply app_inv_head in E.
    exact (afl_segment id Corpus (f_equal (hd []) E)).
  Qed.

  Lemma sub_in_zone krate target sub n : under zone ((output_of krate target ++ [lit "default"; sub]) ++ [n]).
  Proof. unfold output_of, under. eexists. rewrite <- !app_assoc. reflexivity. Qed.

  Lemma output_in_zone krate target p : under (output_of krate target) p -> under zone p.
  Proof. intros [q ->]. unfold output_of. rewrite <- app_assoc. eexists. reflexivity. Qed.

  (** Nothing in the zone has changed since [m0]. *)
  Definition same_zone (m0 m : fs) : Prop := forall p, under zone p -> m !! p = m0 !! p.

  Variable m0 : fs.

  (** What consolidating one entry of a directory in the zone should record. *)
  Definition entry_writes (corpus dir : path) (n : option str) (w : path * bytes) : Prop :=
    exists n', n = Some n' /\ skipped n' = false /\ fst w = corpus /\ m0 !! (dir ++ [n']) = Some (File (snd w)).

  Lemma fs_read_some m p b : fs_read m p = Some b <-> m !! p = Some (File b).
  Proof. unfold fs_read. destruct (m !! p) as [[c|]|]; split; congruence. Qed.

  Lemma cons_entry_ok krate target sub n m :
    same_zone m0 m ->
    step_ok s (same_zone m0)
      (entry_writes (corpus_of krate target) (output_of krate target ++ [lit "default"; sub]) n) m
      (cons_entry s (corpus_of krate target) (output_of krate target ++ [lit "default"; sub]) n m).
  Proof.
    intros Z. set (dir := output_of krate target ++ [lit "default"; sub]).
    destruct n as [n|]; cbn [cons_entry]; [|apply step_ok_none; [exact Z|discriminate]].
    destruct (skipped n) eqn:Sk.
    { unfold step_ok; cbn. split; [exact Z|]. split; [tauto|]. split; [|auto].
      intros _. split; [reflexivity|]. split; [|constructor].
      intros w (n' & [= <-] & Sk' & _). congruence. }
    destruct (i_rd s m (dir ++ [n])) as [data|] eqn:R; [|apply step_ok_none; [exact Z|discriminate]].
    destruct Hs as (_ & Hrd & _). apply Hrd, fs_read_some in R.
    assert (R0 : m0 !! (dir ++ [n]) = Some (File data)).
    { rewrite <- Z; [exact R|]. apply sub_in_zone. }
    assert (F : entry_writes (corpus_of krate target) dir (Some n) (corpus_of krate target, data)).
    { exists n. auto. }
    assert (Only : forall w, entry_writes (corpus_of krate target) dir (Some n) w -> w = (corpus_of krate target, data)).
    { intros [d x] (n' & [= <-] & _ & E1 & E2). cbn in *. congruence. }
    destruct (i_wr s m (corpus_of krate target) data) as [k|] eqn:Wr.
    - unfold step_ok; cbn. split; [|split; [tauto|split; [discriminate|]]].
      + intros p Hp. rewrite torn_write_frame; [now apply Z|now apply zone_not_prefix|].
        now apply corpus_not_zone.
      + right. exists (corpus_of krate target), data, k. eauto.
    - destruct (write_data m (corpus_of krate target) data) as [m' ok] eqn:W.
      assert (Z' : same_zone m0 m').
      { intros p Hp. replace m' with (write_data m (corpus_of krate target) data).1 by now rewrite W.
        rewrite write_data_frame; [now apply Z|now apply zone_not_prefix|]. now apply corpus_not_zone. }
      assert (E : m' = record_all m [(corpus_of krate target, data)]) by (cbn; now rewrite W).
      destruct ok; unfold step_ok; cbn -[record_all write_data record_results].
      + split; [exact Z'|]. split; [intros w [<-|[]]; exact F|]. split; [|now left].
        intros _. split; [exact E|]. split; [intros w Hw; left; symmetry; auto|].
        cbn. rewrite W. repeat constructor.
      + split; [exact Z'|]. split; [intros w [<-|[]]; exact F|]. split; [discriminate|now left].
  Qed.

  Definition dir_writes (corpus dir : path) (w : path * bytes) : Prop :=
    exists n, skipped n = false /\ fst w = corpus /\ m0 !! (dir ++ [n]) = Some (File (snd w)).

  Lemma all_some (l : list (option str)) : (exists ns, l = map Some ns) \/ In None l.
  Proof.
    induction l as [|[a|] l [[ns ->]|IH]]; simpl; auto; [left; exists []; reflexivity|].
    left. exists (a :: ns). reflexivity.
  Qed.

  Lemma for_each_none {A : Type} f (l : list A) a m :
    In a l -> (forall m, result (f a m) <> Ret tt) -> result (for_each f l m) <> Ret tt.
  Proof.
    intros H N. revert m; induction l as [|b l IH]; intros m; [destruct H|].
    simpl. destruct (f b m) as [[m1 h1] [[]|e|]] eqn:E; cbn [seq]; unfold result; cbn; try discriminate.
    destruct H as [->|H].
    - exfalso. apply (N m). rewrite E. reflexivity.
    - specialize (IH H m1). destruct (for_each f l m1) as [[m2 h2] o2]. exact IH.
  Qed.

  Lemma cons_dir_ok krate target sub m :
    same_zone m0 m ->
    step_ok s (same_zone m0)
      (dir_writes (corpus_of krate target) (output_of krate target ++ [lit "default"; sub])) m
      (cons_dir s (corpus_of krate target) (output_of krate target ++ [lit "default"; sub]) m).
  Proof.
    intros Z. set (dir := output_of krate target ++ [lit "default"; sub]). unfold cons_dir.
    destruct (i_ls s m dir) as [l|] eqn:L; [|apply step_ok_none; [exact Z|discriminate]].
    assert (H : step_ok s (same_zone m0)
       (fun w => exists n, In n l /\ entry_writes (corpus_of krate target) dir n w) m
       (for_each (cons_entry s (corpus_of krate target) dir) l m)).
    { apply for_each_ok; [|exact Z]. intros n m' _. apply cons_entry_ok. }
    destruct (all_some l) as [[ns ->]|Hn].
    - destruct Hs as (Hls & _). apply Hls in L as (_ & _ & L).
      revert H. apply step_ok_ext. intros w. unfold entry_writes, dir_writes. split.
      + intros (n & _ & n' & _ & A & B & C). eauto.
      + intros (n & A & B & C). exists (Some n). split; [|eauto].
        apply in_map. apply L. rewrite Z by apply sub_in_zone. congruence.
    - destruct H as (A1 & A2 & A3 & A4). split; [exact A1|]. split; [|split].
      + intros w Hw. destruct (A2 w Hw) as (n & _ & n' & _ & A & B & C). exists n'. auto.
      + intros E. exfalso. revert E.
        apply for_each_none with (a := None); [exact Hn|]. intros m'. discriminate.
      + destruct A4 as [A4|(d & x & k & (n & _ & n' & _ & A & B & C) & A4)]; [auto|].
        right. exists d, x, k. split; [|exact A4]. exists n'. auto.
  Qed.

  Definition target_writes (krate target : str) (w : path * bytes) : Prop :=
    fst w = corpus_of krate target /\ exists p, finding td id m0 krate target p (snd w).

  Lemma skipped_false n : skipped n = false <-> n <> lit "README.txt" /\ n <> lit ".state".
  Proof.
    unfold skipped. rewrite orb_false_iff. unfold str_eqb.
    destruct (str_dec n (lit "README.txt")), (str_dec n (lit ".state")); intuition congruence.
  Qed.

  Lemma cons_target_ok krate target m :
    same_zone m0 m -> step_ok s (same_zone m0) (target_writes krate target) m (cons_target s td id krate target m).
  Proof.
    intros Z. unfold cons_target. rewrite corpus_of_eq, !output_sub_eq. cbn [with_dir].
    set (dirs := [output_of krate target ++ [lit "default"; lit "crashes"];
                  output_of krate target ++ [lit "default"; lit "hangs"];
                  output_of krate target ++ [lit "default"; lit "queue"]]).
    assert (H : step_ok s (same_zone m0)
       (fun w => exists d, In d dirs /\ dir_writes (corpus_of krate target) d w) m
       (for_each (cons_dir s (corpus_of krate target)) dirs m)).
    { apply for_each_ok; [|exact Z]. intros d m' Hd Z'.
      destruct Hd as [<-|[<-|[<-|[]]]]; now apply cons_dir_ok. }
    revert H. apply step_ok_ext. intros w. unfold dir_writes, target_writes, finding. split.
    - intros (d & Hd & n & A & B & C). split; [exact B|]. apply skipped_false in A as [A1 A2].
      assert (Hsub : exists sub, In sub [lit "crashes"; lit "hangs"; lit "queue"] /\
                     d = output_of krate target ++ [lit "default"; sub]).
      { destruct Hd as [<-|[<-|[<-|[]]]]; eexists; (split; [|reflexivity]); cbn [In]; auto. }
      destruct Hsub as (sub & Hsub & ->).
      exists ((output_of krate target ++ [lit "default"; sub]) ++ [n]), sub.
      exists (output_of krate target ++ [lit "default"; sub]), n.
      rewrite output_sub_eq. auto 10.
    - intros (B & p & sub & d & n & Hsub & Hd & A1 & A2 & -> & C).
      rewrite output_sub_eq in Hd. injection Hd as <-.
      exists (output_of krate target ++ [lit "default"; sub]). split.
      + unfold dirs. destruct Hsub as [<-|[<-|[<-|[]]]]; cbn [In]; auto.
      + exists n. split; [now apply skipped_false|auto].
  Qed.

  Definition all_writes (ets : list (str * list str)) (w : path * bytes) : Prop :=
    exists krate target, selected ets krate target /\ target_writes krate target w.

  Lemma consolidate_ok o ets m :
    same_zone m0 m -> step_ok s (same_zone m0) (all_writes ets) m (consolidate s td id o ets m).
  Proof.
    intros Z. unfold consolidate, check.
    destruct (o_consolidate_all o || (Nat.eqb (length ets) 1)); [|apply step_ok_none; [exact Z|discriminate]].
    eapply step_ok_ext; [|apply (for_each_ok s (same_zone m0)
       (fun et w => exists target, In target (snd et) /\ target_writes (fst et) target w)); [|exact Z]].
    - intros w. unfold all_writes, selected. split.
      + intros ([k ts] & H1 & t & H2 & H3). cbn in *. exists k, t. split; [exists ts; auto|exact H3].
      + intros (k & t & (ts & H1 & H2) & H3). exists (k, ts). split; [exact H1|]. exists t. auto.
    - intros [k ts] m' _ Z'. cbn [fst snd].
      destruct (o_consolidate_all o || (Nat.eqb (length ts) 1)); [|apply step_ok_none; [exact Z'|discriminate]].
      apply for_each_ok; [|exact Z']. intros t m'' _. apply cons_target_ok.
  Qed.

  (** Recording findings of [m0] only ever adds or rewrites corpus entries. *)
  Lemma all_writes_corpus ets w : all_writes ets w ->
    exists k t p, selected ets k t /\ fst w = corpus_of k t /\ m0 !! p = Some (File (snd w)) /\
                  finding td id m0 k t p (snd w).
  Proof.
    intros (k & t & Sel & E & p & H). exists k, t, p. split; [exact Sel|]. split; [exact E|].
    split; [|exact H]. destruct H as (sub & d & n & _ & _ & _ & _ & -> & L). exact L.
  Qed.

  Lemma corpus_name_sha x y : corpus_name x = corpus_name y -> sha1 x = sha1 y.
  Proof.
    intros E. destruct (corpus_name_spec x) as (_ & _ & A), (corpus_name_spec y) as (_ & _ & B). congruence.
  Qed.

  (** Any state reached by recording findings: a finding recorded is in its corpus. *)
  Lemma recorded_stays m h d x :
    no_collision_in m0 -> (forall w, In w h -> exists p, m0 !! p = Some (File (snd w))) ->
    Forall (fun ok => ok = true) (record_results m h) ->
    In (d, x) h -> record_all m h !! (d ++ [corpus_name x]) = Some (File x).
  Proof.
    intros NC F Ok. revert m Ok. assert (K : forall h m, (forall w, In w h -> exists p, m0 !! p = Some (File (snd w))) ->
      (exists p, m0 !! p = Some (File x)) -> m !! (d ++ [corpus_name x]) = Some (File x) ->
      record_all m h !! (d ++ [corpus_name x]) = Some (File x)).
    { clear h F. induction h as [|[e y] h IH]; intros m F Fx L; simpl; [exact L|].
      apply IH; [intros; apply F; now right|exact Fx|].
      destruct (decide (d ++ [corpus_name x] = e ++ [corpus_name y])) as [E|N].
      - apply app_inj_tail in E as [-> E]. apply corpus_name_sha in E as E'.
        destruct Fx as [p Fx]. destruct (F (e, y) (or_introl eq_refl)) as [p' Fy]. cbn in Fy.
        rewrite (NC _ _ _ _ Fx Fy E') in *.
        unfold write_data.
        assert (L' : (create_dir_all m e).1 !! (e ++ [corpus_name y]) = Some (File y)).
        { now apply create_dir_all_keep. }
        destruct (fs_write _ _ _) as [m2|] eqn:W; simpl; [|exact L'].
        apply fs_write_some in W as (-> & _). apply lookup_insert.
      - now apply write_data_keep. }
    induction h as [|[e y] h IH]; intros m Ok I; [destruct I|].
    simpl in *. inversion Ok as [|? ? Ok1 Ok2]; subst.
    destruct I as [[= -> ->]|I].
    - apply K; [intros; apply F; now right|apply (F (d, x)); now left|].
      unfold write_data in *. destruct (fs_write _ _ _) as [m2|] eqn:W; simpl in *; [|discriminate].
      apply fs_write_some in W as (-> & _). apply lookup_insert.
    - apply IH; auto.
  Qed.

  (** Paths that are not rewritten with something else keep their contents. *)
  Lemma record_all_keep_same m h p n :
    m !! p = Some n -> (forall d x, In (d, x) h -> p = d ++ [corpus_name x] -> n = File x) ->
    record_all m h !! p = Some n.
  Proof.
    revert m; induction h as [|[d x] h IH]; intros m L N; simpl; [exact L|].
    apply IH; [|intros; eapply N; eauto; now right].
    destruct (decide (p = d ++ [corpus_name x])) as [E|Hne]; [|now apply write_data_keep].
    specialize (N d x (or_introl eq_refl) E). subst. unfold write_data.
    assert (L' : (create_dir_all m d).1 !! (d ++ [corpus_name x]) = Some (File x)) by now apply create_dir_all_keep.
    destruct (fs_write _ _ _) as [m2|] eqn:W; simpl; [|exact L'].
    apply fs_write_some in W as (-> & _). apply lookup_insert.
  Qed.

  (** * Resetting *)

  Definition outputs (ets : list (str * list str)) (d : path) : Prop :=
    exists k t, selected ets k t /\ dir_from_target td id Output k t = Ret d.

  Definition closed (D : path -> Prop) (m : fs) : Prop :=
    forall d, D d -> m !! d = None -> forall p, under d p -> m !! p = None.

  (** What a step of resetting guarantees; [R] are the directories it should remove. *)
  Definition reset_ok (D R : path -> Prop) (m : fs) (r : res) : Prop :=
    part_removed R m (state r) /\
    (result r = Ret tt -> closed D (state r) /\ forall d p, R d -> under d p -> state r !! p = None).

  Lemma part_removed_refl R m : part_removed R m m.
  Proof. intros p. now left. Qed.

  Lemma part_removed_trans (R R1 R2 : path -> Prop) m1 m2 m3 :
    (forall d, R1 d -> R d) -> (forall d, R2 d -> R d) ->
    part_removed R1 m1 m2 -> part_removed R2 m2 m3 -> part_removed R m1 m3.
  Proof.
    intros H1 H2 A B p. destruct (B p) as [E|[(d & Hd & U) E]].
    - rewrite E. destruct (A p) as [F|[(d & Hd & U) F]]; [now left|right; eauto].
    - right; eauto.
  Qed.

  Lemma for_each_reset {A : Type} (D : path -> Prop) (R : A -> path -> Prop) f l :
    (forall a d, In a l -> R a d -> D d) ->
    (forall a m, In a l -> closed D m -> reset_ok D (R a) m (f a m)) ->
    forall m, closed D m -> reset_ok D (fun d => exists a, In a l /\ R a d) m (for_each f l m).
  Proof.
    induction l as [|a l IH]; intros HD Hf m Hm; simpl.
    - split; cbn; [apply part_removed_refl|]. intros _. split; [exact Hm|]. intros d p (a & [] & _).
    - destruct (Hf a m (or_introl eq_refl) Hm) as [A1 A2].
      destruct (f a m) as [[m1 h1] o1]; unfold reset_ok, state, result in *; cbn [fst snd] in *.
      destruct o1 as [[]|e|]; cbn [seq fst snd].
      + destruct (A2 eq_refl) as [C1 C2].
        specialize (IH (fun a d H => HD a d (or_intror H)) (fun a m H => Hf a m (or_intror H)) m1 C1).
        destruct (for_each f l m1) as [[m2 h2] o2]; cbn [fst snd] in *.
        destruct IH as [B1 B2]. split.
        * eapply part_removed_trans; [| |exact A1|exact B1].
          -- intros d Hd. exists a. split; [now left|exact Hd].
          -- intros d (b & Hb & Rb). exists b. split; [now right|exact Rb].
        * intros E. destruct (B2 E) as [C3 C4]. split; [exact C3|].
          intros d p (b & [<-|Hb] & Rb) U; [|eapply C4; eauto].
          destruct (B1 p) as [E'|[_ E']]; [|exact E']. rewrite E'. eapply C2; eauto.
      + split; [|discriminate]. eapply (part_removed_trans _ (R a) (R a)); [| |exact A1|apply part_removed_refl];
        intros d Hd; exists a; (split; [now left|exact Hd]).
      + split; [|discriminate]. eapply (part_removed_trans _ (R a) (R a)); [| |exact A1|apply part_removed_refl];
        intros d Hd; exists a; (split; [now left|exact Hd]).
  Qed.

  Lemma output_of_nonempty k t : output_of k t <> [].
  Proof. unfold output_of, zone. destruct td; discriminate. Qed.

  Lemma exists_none m p : p <> [] -> exists_ m p = false -> m !! p = None.
  Proof. unfold exists_. destruct p; [contradiction|]. destruct (m !! _); [discriminate|reflexivity]. Qed.

  Lemma reset_target_ok (D : path -> Prop) k t m :
    D (output_of k t) -> closed D m -> reset_ok D (eq (output_of k t)) m (reset_target s td id k t m).
  Proof.
    intros HD C. unfold reset_target. rewrite output_of_eq. cbn [with_dir].
    unfold reset_ok. destruct (exists_ m (output_of k t)) eqn:X.
    - destruct (i_rm s m (output_of k t)) as [m'|] eqn:R; cbn.
      + destruct Hs as (_ & _ & Hrm). split; [now apply Hrm in R|discriminate].
      + destruct (remove_dir_all m (output_of k t)) as [m'|] eqn:R'; cbn.
        * apply remove_dir_all_some in R' as (_ & A & B). split.
          -- intros p. destruct (is_prefix (output_of k t) p) eqn:P.
             ++ apply is_prefix_spec in P. right. split; [eauto|auto].
             ++ left. apply B. intros U. apply is_prefix_spec in U. congruence.
          -- intros _. split; [|intros d p <- U; auto].
             intros d Hd L p U. destruct (is_prefix (output_of k t) p) eqn:P.
             ++ apply A. now apply is_prefix_spec.
             ++ assert (NU : ~ under (output_of k t) p) by (intros U'; apply is_prefix_spec in U'; congruence).
                rewrite B by exact NU. apply (C d Hd); [|exact U].
                rewrite <- B; [exact L|]. intros U'. apply NU.
                destruct U' as [q1 ->], U as [q2 ->]. rewrite <- app_assoc. eexists; reflexivity.
        * split; [apply part_removed_refl|discriminate].
    - cbn. split; [apply part_removed_refl|]. intros _. split; [exact C|].
      intros d p <- U. apply (C _ HD); [|exact U]. apply exists_none; [apply output_of_nonempty|exact X].
  Qed.

  Lemma reset_all_ok o ets m :
    closed (outputs ets) m -> reset_ok (outputs ets) (outputs ets) m (reset s td id o ets m).
  Proof.
    intros C. unfold reset, check.
    destruct (o_reset_all o || (Nat.eqb (length ets) 1));
      [|split; cbn; [apply part_removed_refl|discriminate]].
    assert (H : reset_ok (outputs ets) (fun d => exists et, In et ets /\ (exists t, In t (snd et) /\ output_of (fst et) t = d)) m
      (for_each (fun et m => if o_reset_all o || (Nat.eqb (length (snd et)) 1)
           then for_each (reset_target s td id (fst et)) (snd et) m else (m, [], Panic)) ets m)).
    { apply for_each_reset; [| |exact C].
      - intros [k ts] d H (t & Ht & <-). exists k, t. split; [exists ts; auto|]. apply output_of_eq.
      - intros [k ts] m' H C'. cbn [fst snd] in *.
        destruct (o_reset_all o || (Nat.eqb (length ts) 1)); [|split; cbn; [apply part_removed_refl|discriminate]].
        apply (for_each_reset _ (fun t => eq (output_of k t))); [| |exact C'].
        + intros t d Ht <-. exists k, t. split; [exists ts; auto|]. apply output_of_eq.
        + intros t m'' Ht C''. apply reset_target_ok; [|exact C''].
          exists k, t. split; [exists ts; auto|]. apply output_of_eq. }
    assert (E : forall d, outputs ets d <-> exists et, In et ets /\ (exists t, In t (snd et) /\ output_of (fst et) t = d)).
    { intros d. unfold outputs, selected. split.
      - intros (k & t & (ts & H1 & H2) & Ed). rewrite output_of_eq in Ed. injection Ed as <-.
        exists (k, ts). split; [exact H1|]. exists t. auto.
      - intros ([k ts] & H1 & t & H2 & <-). exists k, t. split; [exists ts; auto|]. apply output_of_eq. }
    destruct H as [H1 H2]. split.
    - intros p. destruct (H1 p) as [F|[(d & Hd & U) F]]; [now left|right]. split; [|exact F].
      exists d. split; [now apply E|exact U].
    - intros R. destruct (H2 R) as [H3 H4]. split; [exact H3|]. intros d p Hd. apply H4. now apply E.
  Qed.
End Spec.

(** * Crash points *)

(** The states in which the process may die while consolidating and then
    resetting: between two recordings, while creating the directories of a corpus,
    in the middle of writing a corpus file, or in the middle of removing output
    directories in any order. *)
Inductive crash_state (s : io) (td : path) (id : option str) (o : opts) (ets : list (str * list str))
          (m : fs) : fs -> Prop :=
| cs_before : forall h1 h2,
    hist (consolidate s td id o ets m) = h1 ++ h2 ->
    crash_state s td id o ets m (record_all m h1)
| cs_mkdir : forall h1 d x h2 j,
    hist (consolidate s td id o ets m) = h1 ++ (d, x) :: h2 ->
    crash_state s td id o ets m ((create_dir_all (record_all m h1) (firstn j d)).1)
| cs_during : forall h1 d x h2 k,
    hist (consolidate s td id o ets m) = h1 ++ (d, x) :: h2 ->
    crash_state s td id o ets m (torn_write (record_all m h1) d x k)
| cs_end : crash_state s td id o ets m (state (consolidate s td id o ets m))
| cs_reset : forall m',
    result (consolidate s td id o ets m) = Ret tt ->
    part_removed (outputs td id ets) (state (consolidate s td id o ets m)) m' ->
    crash_state s td id o ets m m'.

Lemma same_zone_refl td m : same_zone td m m.
Proof. intros p _. reflexivity. Qed.

Lemma closed_wf (D : path -> Prop) m : (forall d, D d -> d <> []) -> fs_wf m -> closed D m.
Proof.
  intros N W d Hd L p [q ->]. specialize (N d Hd).
  induction q as [|c q IH] using rev_ind; [now rewrite app_nil_r|].
  destruct (m !! (d ++ q ++ [c])) as [n|] eqn:E; [|reflexivity].
  apply W in E. rewrite app_assoc, parent_snoc in E. unfold is_dir in E.
  destruct (d ++ q) eqn:F; [destruct d; [contradiction|discriminate]|].
  rewrite IH in E. discriminate.
Qed.

Lemma outputs_zone td id ets d : outputs td id ets d -> exists k t, d = output_of td id k t.
Proof.
  intros (k & t & _ & E). rewrite output_of_eq in E. injection E as <-. eauto.
Qed.

Lemma closed_same_zone td id ets m m' :
  same_zone td m m' -> closed (outputs td id ets) m -> closed (outputs td id ets) m'.
Proof.
  intros Z C d Hd L p U. destruct (outputs_zone _ _ _ _ Hd) as (k & t & ->).
  rewrite Z by (eapply output_in_zone; exact U).
  apply (C _ Hd); [|exact U]. rewrite <- Z; [exact L|].
  apply (output_in_zone _ id k t). exists []. now rewrite app_nil_r.
Qed.

Lemma finding_in_zone td id m k t p b :
  finding td id m k t p b -> under (zone td) p /\ m !! p = Some (File b).
Proof.
  intros (sub & d & n & _ & E & _ & _ & -> & L). split; [|exact L].
  rewrite output_sub_eq in E. injection E as <-. apply sub_in_zone.
Qed.

Lemma finding_same_zone td id m m' k t p b :
  same_zone td m m' -> finding td id m k t p b -> finding td id m' k t p b.
Proof.
  intros Z F. destruct (finding_in_zone _ _ _ _ _ _ _ F) as [U L].
  destruct F as (sub & d & n & A & B & C & D & E & _).
  exists sub, d, n. do 5 (split; [assumption|]). rewrite Z; assumption.
Qed.

(** A corpus path is under none of the output directories. *)
Lemma corpus_not_output td id ets k t r d :
  outputs td id ets d -> ~ under d (corpus_of td id k t ++ r).
Proof.
  intros Hd U. destruct (outputs_zone _ _ _ _ Hd) as (k' & t' & ->).
  apply output_in_zone in U. now apply (corpus_not_zone td id k t r) in U.
Qed.

(** Everything consolidation records is recorded for good, if it succeeds. *)
Lemma consolidate_records s td id o ets m k t p b :
  io_ok s -> no_collision_in m -> result (consolidate s td id o ets m) = Ret tt ->
  selected ets k t -> finding td id m k t p b ->
  state (consolidate s td id o ets m) !! (corpus_of td id k t ++ [corpus_name b]) = Some (File b).
Proof.
  intros Hs NC R Sel F.
  destruct (consolidate_ok s Hs td id m o ets m (same_zone_refl td m)) as (_ & A2 & A3 & _).
  destruct (A3 R) as (-> & B & Ok). apply (recorded_stays m m _ _ _ NC); [|exact Ok|].
  - intros w Hw. apply A2, all_writes_corpus in Hw as (_ & _ & p' & _ & _ & L & _). eauto.
  - apply B. exists k, t. split; [exact Sel|]. split; [reflexivity|]. exists p. exact F.
Qed.

Lemma crash_safe s td id o ets m m' k t p b :
  io_ok s -> no_collision_in m -> crash_state s td id o ets m m' ->
  selected ets k t -> finding td id m k t p b ->
  m' !! p = Some (File b) \/ in_corpus td id m' k t b.
Proof.
  intros Hs NC CS Sel F. pose proof (finding_in_zone _ _ _ _ _ _ _ F) as [U L].
  destruct (consolidate_ok s Hs td id m o ets m (same_zone_refl td m)) as (A1 & A2 & A3 & A4).
  assert (K : forall h, (forall w, In w h -> all_writes td id m ets w) -> same_zone td m (record_all m h)).
  { clear - td. intros h H q Uq.
    assert (G : forall m1, record_all m1 h !! q = m1 !! q); [|apply G].
    induction h as [|[d x] h IH]; intros m1; [reflexivity|]. simpl.
    rewrite IH by (intros; apply H; now right).
    destruct (all_writes_corpus _ _ _ _ _ (H _ (or_introl eq_refl))) as (k & t & _ & _ & E & _).
    cbn in E. subst d. apply write_data_frame; [now apply zone_not_prefix|now apply corpus_not_zone]. }
  destruct CS as [h1 h2 E|h1 d x h2 j E|h1 d x h2 j E| |m' R P].
  - left. rewrite K; [exact L| |exact U]. intros w Hw. apply A2. rewrite E. apply in_app_iff. auto.
  - left. apply create_dir_all_keep. rewrite K; [exact L| |exact U].
    intros w Hw. apply A2. rewrite E. apply in_app_iff. auto.
  - left. assert (W : all_writes td id m ets (d, x)).
    { apply A2. rewrite E. apply in_app_iff. right. now left. }
    destruct (all_writes_corpus _ _ _ _ _ W) as (k' & t' & _ & _ & E' & _). cbn in E'. subst d.
    rewrite torn_write_frame; [|now apply zone_not_prefix|now apply corpus_not_zone].
    rewrite K; [exact L| |exact U]. intros w Hw. apply A2. rewrite E. apply in_app_iff. auto.
  - left. rewrite A1; assumption.
  - right. exists (corpus_of td id k t), (corpus_name b). split; [apply corpus_of_eq|].
    destruct (P (corpus_of td id k t ++ [corpus_name b])) as [Q|[(d & Hd & Ud) _]].
    + rewrite Q. now apply (consolidate_records s td id o ets m k t p b).
    + destruct (corpus_not_output _ _ _ _ _ _ _ Hd Ud).
Qed.

(** The state after consolidating, whatever the result, keeps every
    content-addressed file, except one hit by a write error, whose data is then
    still in an output directory. *)
Lemma consolidate_keeps s td id o ets m d n b :
  io_ok s -> no_collision_in m -> content_addressed m d -> m !! (d ++ [n]) = Some (File b) ->
  state (consolidate s td id o ets m) !! (d ++ [n]) = Some (File b) \/
  ((exists m1 d1 x, i_wr s m1 d1 x <> None) /\ result (consolidate s td id o ets m) <> Ret tt /\
   exists k t p, selected ets k t /\ finding td id (state (consolidate s td id o ets m)) k t p b).
Proof.
  intros Hs NC CA L.
  destruct (consolidate_ok s Hs td id m o ets m (same_zone_refl td m)) as (A1 & A2 & A3 & A4).
  assert (Same : forall d' x, all_writes td id m ets (d', x) -> d ++ [n] = d' ++ [corpus_name x] -> b = x).
  { intros d' x W E. apply app_inj_tail in E as [<- ->].
    destruct (all_writes_corpus _ _ _ _ _ W) as (_ & _ & p & _ & _ & Lx & _). cbn in Lx.
    apply (NC _ _ _ _ L Lx). destruct (CA _ _ L) as (_ & _ & H1).
    destruct (corpus_name_spec x) as (_ & _ & H2). congruence. }
  assert (H : record_all m (hist (consolidate s td id o ets m)) !! (d ++ [n]) = Some (File b)).
  { apply record_all_keep_same; [exact L|]. intros d' x I E. f_equal. apply (Same d' x); [apply A2, I|exact E]. }
  assert (Dec : result (consolidate s td id o ets m) = Ret tt \/ result (consolidate s td id o ets m) <> Ret tt).
  { destruct (result (consolidate s td id o ets m)) as [[]|e|]; auto; right; discriminate. }
  destruct Dec as [R|R].
  - left. destruct (A3 R) as (-> & _). exact H.
  - destruct A4 as [->|(d' & x & j & W & E & m1 & I)]; [now left|].
    destruct (decide (d ++ [n] = d' ++ [corpus_name x])) as [E'|Hne].
    + pose proof (Same _ _ W E') as <-. right. split; [|split; [exact R|]].
      * exists m1, d', b. congruence.
      * destruct W as (k & t & Sel & _ & p & F). exists k, t, p. split; [exact Sel|].
        now apply (finding_same_zone td id m).
    + left. rewrite E. now apply torn_write_keep.
Qed.

(** * Success *)

Lemma for_each_succeeds {A : Type} (J : fs -> Prop) (f : A -> fs -> res) l :
  (forall a m, In a l -> J m -> result (f a m) = Ret tt /\ J (state (f a m))) ->
  forall m, J m -> result (for_each f l m) = Ret tt /\ J (state (for_each f l m)).
Proof.
  induction l as [|a l IH]; intros H m Hm; [split; [reflexivity|exact Hm]|]. simpl.
  destruct (H a m (or_introl eq_refl) Hm) as [R Hm'].
  destruct (f a m) as [[m1 h1] o1]. unfold result, state in *. cbn [fst snd] in *. subst o1. cbn [seq].
  destruct (IH (fun a m I => H a m (or_intror I)) m1 Hm') as [R2 Hm2].
  destruct (for_each f l m1) as [[m2 h2] o2]. exact (conj R2 Hm2).
Qed.

(** The condition under which consolidating a target can succeed. *)
Definition consolidatable (td : path) (id : option str) (m : fs) (krate target : str) : Prop :=
  (forall sub d, In sub [lit "crashes"; lit "hangs"; lit "queue"] ->
     output_subdir td id sub krate target = Ret d ->
     is_dir m d = true /\ forall n, n <> lit "README.txt" -> n <> lit ".state" -> m !! (d ++ [n]) <> Some Dir) /\
  (forall d, dir_from_target td id Corpus krate target = Ret d -> usable m d).

Lemma corpus_not_under td id k t k' t' n : ~ under (corpus_of td id k t ++ [n]) (corpus_of td id k' t').
Proof.
  intros [q E]. apply (f_equal (@length _)) in E. unfold corpus_of in E.
  rewrite !app_length in E. simpl in E. lia.
Qed.

Lemma consolidate_succeeds s td id o ets m :
  io_ok s -> io_good s -> (o_consolidate_all o = true \/ exactly_one ets) ->
  (forall k t, selected ets k t -> consolidatable td id m k t) ->
  result (consolidate s td id o ets m) = Ret tt.
Proof.
  intros Hs (G1 & G2 & G3 & G4 & _) O H.
  set (J := fun m' => same_zone td m m' /\ forall k t, selected ets k t -> usable m' (corpus_of td id k t)).
  assert (HJ : J m).
  { split; [apply same_zone_refl|]. intros k t Sel. destruct (H k t Sel) as [_ U]. apply U, corpus_of_eq. }
  unfold consolidate, check.
  replace (o_consolidate_all o || Nat.eqb (length ets) 1) with true.
  2: { destruct O as [->|(k & t & ->)]; [reflexivity|now rewrite orb_true_r]. }
  apply (for_each_succeeds J); [|exact HJ].
  intros [k ts] m1 Iet HJ1. cbn [fst snd].
  replace (o_consolidate_all o || Nat.eqb (length ts) 1) with true.
  2: { destruct O as [->|(k' & t' & ->)]; [reflexivity|].
       destruct Iet as [[= <- <-]|[]]. now rewrite orb_true_r. }
  apply for_each_succeeds; [|exact HJ1]. intros t m2 It HJ2.
  assert (Sel : selected ets k t) by (exists ts; auto).
  unfold cons_target. rewrite corpus_of_eq, !output_sub_eq. cbn [with_dir].
  apply (for_each_succeeds J); [|exact HJ2]. intros d m3 Id HJ3.
  assert (Hsub : exists sub, In sub [lit "crashes"; lit "hangs"; lit "queue"] /\
                     d = output_of td id k t ++ [lit "default"; sub]).
  { destruct Id as [<-|[<-|[<-|[]]]]; eexists; (split; [|reflexivity]); cbn [In]; auto. }
  destruct Hsub as (sub & Hsub & Ed).
  destruct (H k t Sel) as [Hd _]. destruct (Hd sub d Hsub) as [Hd1 Hd2]; [rewrite output_sub_eq; congruence|].
  assert (Zd : under (zone td) d).
  { subst d. apply (output_in_zone td id k t). eexists. reflexivity. }
  unfold cons_dir. destruct (i_ls s m3 d) as [l|] eqn:L.
  2: { apply G1 in L. exfalso. unfold is_dir in L, Hd1. destruct d; [discriminate|].
       destruct HJ3 as [Z _]. rewrite Z in L by exact Zd. congruence. }
  destruct (G2 _ _ _ L) as [ns ->]. destruct Hs as (Hls & Hrd & _). apply Hls in L as (_ & _ & L).
  apply (for_each_succeeds J); [|exact HJ3]. intros n' m4 In' HJ4.
  apply in_map_iff in In' as (n & <- & Hn). cbn [cons_entry].
  destruct (skipped n) eqn:Sk; [split; [reflexivity|exact HJ4]|].
  apply skipped_false in Sk as [Sk1 Sk2].
  assert (Zn : under (zone td) (d ++ [n])) by (subst d; apply sub_in_zone).
  assert (Ex : exists b, m4 !! (d ++ [n]) = Some (File b)).
  { apply L in Hn. destruct HJ3 as [Z3 _], HJ4 as [Z4 _]. rewrite Z3 in Hn by exact Zn.
    specialize (Hd2 n Sk1 Sk2). rewrite Z4 by exact Zn.
    destruct (m !! (d ++ [n])) as [[b|]|]; [eauto|congruence|congruence]. }
  destruct Ex as [b Ex].
  destruct (i_rd s m4 (d ++ [n])) as [data|] eqn:R.
  2: { apply G3 in R. unfold fs_read in R. rewrite Ex in R. discriminate. }
  rewrite G4. destruct HJ4 as [Z4 U4].
  destruct (write_data_ok m4 (corpus_of td id k t) data (U4 k t Sel)) as (W1 & _ & _).
  assert (J' : J (write_data m4 (corpus_of td id k t) data).1).
  { split.
    - intros p Hp. rewrite write_data_frame; [now apply Z4|now apply zone_not_prefix|now apply corpus_not_zone].
    - intros k' t' Sel'. apply usable_write; [now apply U4|apply corpus_not_under|].
      intros y. apply corpus_not_under. }
  destruct (write_data m4 (corpus_of td id k t) data) as [m5 ok]. cbn in W1, J'. subst ok.
  split; [reflexivity|exact J'].
Qed.

(** A target one of whose three directories is missing makes consolidation fail. *)
Lemma consolidate_missing s td id o ets m k t sub d :
  io_ok s -> selected ets k t -> In sub [lit "crashes"; lit "hangs"; lit "queue"] ->
  output_subdir td id sub k t = Ret d -> is_dir m d = false ->
  result (consolidate s td id o ets m) <> Ret tt.
Proof.
  intros Hs (ts & Iet & It) Hsub Ed N.
  rewrite output_sub_eq in Ed. injection Ed as Ed.
  assert (Zd : under (zone td) d).
  { subst d. apply (output_in_zone td id k t). eexists. reflexivity. }
  (* once the zone is as in [m], the step for [d] fails; so do the loops around it *)
  assert (K : forall (A : Type) (f : A -> fs -> res) (F : A -> path * bytes -> Prop) l a,
    (forall a m', In a l -> same_zone td m m' -> step_ok s (same_zone td m) (F a) m' (f a m')) ->
    In a l -> (forall m', same_zone td m m' -> result (f a m') <> Ret tt) ->
    forall m', same_zone td m m' -> result (for_each f l m') <> Ret tt).
  { intros A f F l a Hf Ia Ha. induction l as [|b l IH]; intros m' Z; [destruct Ia|].
    simpl. destruct (Hf b m' (or_introl eq_refl) Z) as (Z' & _).
    specialize (Ha). destruct (f b m') as [[m1 h1] [[]|e|]] eqn:E; cbn [seq]; unfold result; cbn [snd]; try discriminate.
    destruct Ia as [->|Ia].
    - exfalso. apply (Ha m' Z). rewrite E. reflexivity.
    - specialize (IH (fun a m' I => Hf a m' (or_intror I)) Ia m1 Z').
      destruct (for_each f l m1) as [[m2 h2] o2]. exact IH. }
  unfold consolidate, check. destruct (_ || _); [|discriminate].
  apply (K _ _ (fun et w => exists target, In target (snd et) /\ target_writes td id m (fst et) target w) _ (k, ts));
    [| exact Iet | | apply same_zone_refl].
  { intros [k' ts'] m' _ Z'. cbn [fst snd].
    destruct (_ || _); [|apply step_ok_none; [exact Z'|discriminate]].
    apply for_each_ok; [|exact Z']. intros t' m'' _. now apply cons_target_ok. }
  intros m1 Z1. cbn [fst snd]. destruct (_ || _); [|discriminate].
  apply (K _ _ (target_writes td id m k) _ t); [|exact It| |exact Z1].
  { intros t' m' _. now apply cons_target_ok. }
  intros m2 Z2. unfold cons_target. rewrite corpus_of_eq, !output_sub_eq. cbn [with_dir].
  apply (K _ _ (fun d => dir_writes m (corpus_of td id k t) d) _ d); [| | |exact Z2].
  { intros d' m' Id Z'. destruct Id as [<-|[<-|[<-|[]]]]; now apply cons_dir_ok. }
  { subst d. destruct Hsub as [<-|[<-|[<-|[]]]]; cbn [In]; auto. }
  intros m3 Z3. unfold cons_dir. destruct (i_ls s m3 d) as [l|] eqn:L; [|discriminate].
  destruct (all_some l) as [[ns ->]|Hn].
  - destruct Hs as (Hls & _). apply Hls in L as (D & _). unfold is_dir in *.
    destruct d; [discriminate|]. rewrite Z3 in D by exact Zd. congruence.
  - apply for_each_none with (a := None); [exact Hn|]. intros m'. discriminate.
Qed.

Lemma reset_succeeds s td id o ets m :
  io_ok s -> io_good s -> (o_reset_all o = true \/ exactly_one ets) ->
  (forall k t d, selected ets k t -> dir_from_target td id Output k t = Ret d ->
                 m !! d = None \/ m !! d = Some Dir) ->
  result (reset s td id o ets m) = Ret tt.
Proof.
  intros Hs (_ & _ & _ & _ & G5) O H.
  set (J := fun m' : fs => forall k t, selected ets k t ->
              m' !! output_of td id k t = None \/ m' !! output_of td id k t = Some Dir).
  assert (HJ : J m) by (intros k t Sel; apply (H k t); [exact Sel|apply output_of_eq]).
  unfold reset, check.
  replace (o_reset_all o || Nat.eqb (length ets) 1) with true.
  2: { destruct O as [->|(k & t & ->)]; [reflexivity|now rewrite orb_true_r]. }
  apply (for_each_succeeds J); [|exact HJ].
  intros [k ts] m1 Iet HJ1. cbn [fst snd].
  replace (o_reset_all o || Nat.eqb (length ts) 1) with true.
  2: { destruct O as [->|(k' & t' & ->)]; [reflexivity|].
       destruct Iet as [[= <- <-]|[]]. now rewrite orb_true_r. }
  apply for_each_succeeds; [|exact HJ1]. intros t m2 It HJ2.
  assert (Sel : selected ets k t) by (exists ts; auto).
  unfold reset_target. rewrite output_of_eq. cbn [with_dir].
  destruct (exists_ m2 (output_of td id k t)) eqn:X; [|split; [reflexivity|exact HJ2]].
  rewrite G5. destruct (HJ2 k t Sel) as [E|E].
  - exfalso. unfold exists_ in X. destruct (output_of td id k t) eqn:Q; [now apply (output_of_nonempty td id k t)|].
    rewrite E in X. discriminate.
  - destruct (remove_dir_all m2 (output_of td id k t)) as [m3|] eqn:R.
    + split; [reflexivity|]. apply remove_dir_all_some in R as (_ & A & B).
      intros k' t' Sel'. unfold state; cbn [fst].
      destruct (is_prefix (output_of td id k t) (output_of td id k' t')) eqn:P.
      * left. apply A. now apply is_prefix_spec.
      * rewrite B; [now apply HJ2|]. intros U. apply is_prefix_spec in U. congruence.
    + unfold remove_dir_all in R. rewrite E in R. discriminate.
Qed.

(** * A concrete operating system *)

Fixpoint strip_path (d p : path) : option path :=
  match d, p with
  | [], _ => Some p
  | a :: d', b :: p' => if str_dec a b then strip_path d' p' else None
  | _, _ => None
  end.

Lemma strip_path_some d p q : strip_path d p = Some q <-> p = d ++ q.
Proof.
  revert p; induction d as [|a d IH]; intros p; simpl; [split; congruence|].
  destruct p as [|b p]; [split; discriminate|].
  destruct (str_dec a b) as [->|n]; [rewrite IH; split; congruence|split; congruence].
Qed.

Definition child (d p : path) : option str :=
  match strip_path d p with Some [n] => Some n | _ => None end.

Lemma child_some d p n : child d p = Some n <-> p = d ++ [n].
Proof.
  unfold child. destruct (strip_path d p) as [q|] eqn:E.
  - apply strip_path_some in E. subst p. split.
    + destruct q as [|x [|y q]]; congruence.
    + intros H. apply app_inv_head in H. now subst.
  - split; [discriminate|]. intros H. apply strip_path_some in H. congruence.
Qed.

Definition children (m : fs) (d : path) : list str := omap (child d) (map fst (map_to_list m)).

Definition real_io : io := {|
  i_ls := fun m d => if is_dir m d then Some (map Some (children m d)) else None;
  i_rd := fs_read;
  i_wr := fun _ _ _ => None;
  i_rm := fun _ _ => None |}.

Lemma children_nodup d (ps : list path) : NoDup ps -> NoDup (omap (child d) ps).
Proof.
  induction 1 as [|p ps Hp Hps IH]; [constructor|]. cbn.
  destruct (child d p) as [n|] eqn:E; [|exact IH].
  constructor; [|exact IH]. intros I. apply elem_of_list_omap in I as (p' & Ip & E').
  apply child_some in E, E'. congruence.
Qed.

Lemma map_Some_inj (l l' : list str) : map Some l = map Some l' -> l = l'.
Proof. revert l'; induction l as [|a l IH]; intros [|b l'] H; try discriminate; [reflexivity|].
  injection H as -> H. f_equal. auto. Qed.

Lemma real_io_ok : io_ok real_io.
Proof.
  split; [|split].
  - cbn. intros m d ns. destruct (is_dir m d) eqn:D; [|discriminate]. intros [= E].
    apply map_Some_inj in E. subst ns. split; [exact D|]. split.
    + apply children_nodup. apply NoDup_fst_map_to_list.
    + intros n. unfold children. rewrite <- elem_of_list_In, elem_of_list_omap. split.
      * intros (p & I & E). apply child_some in E. subst p.
        apply elem_of_list_fmap in I as ([p x] & E & I). cbn in E. subst p.
        apply elem_of_map_to_list in I. congruence.
      * intros H. exists (d ++ [n]). split; [|now apply child_some].
        destruct (m !! (d ++ [n])) as [x|] eqn:L; [|congruence].
        apply elem_of_list_fmap. exists (d ++ [n], x). split; [reflexivity|]. now apply elem_of_map_to_list.
  - cbn. auto.
  - cbn. discriminate.
Qed.

Lemma real_io_good : io_good real_io.
Proof.
  split; [|split; [|split; [|split]]]; cbn; try reflexivity; try tauto.
  - intros m d. destruct (is_dir m d); [discriminate|reflexivity].
  - intros m d l. destruct (is_dir m d); [|discriminate]. intros [= <-]. eauto.
Qed.

(** * Directories apart from those of the fuzzers *)

Lemma output_zone td id k t d p : dir_from_target td id Output k t = Ret d -> under d p -> under (zone td) p.
Proof. rewrite output_of_eq. intros [= <-]. apply output_in_zone. Qed.

Lemma recorded_dir td id k tn d : k <> Output -> dir_from_args_type td id k tn = Ret d ->
  exists s, d = td ++ [path_segment id (kind_name k); s].
Proof.
  unfold dir_from_args_type. intros N. destruct (path_from_args_type tn) as [s|e|]; destruct k; cbn; try congruence;
    intros [= <-]; exists s; unfold pjoin; now rewrite <- app_assoc.
Qed.

Lemma zone_apart td id k s p x : under (zone td) p ->
  is_prefix p (td ++ [path_segment id (kind_name k); s]) = false /\ p <> (td ++ [path_segment id (kind_name k); s]) ++ [x].
Proof.
  intros [q ->]. unfold zone. rewrite <- !app_assoc. split.
  - apply not_under_is_prefix. intros [r E]. rewrite <- app_assoc in E. apply app_inv_head in E.
    exact (afl_segment id k (f_equal (hd []) (eq_sym E))).
  - intros E. apply app_inv_head in E. exact (afl_segment id k (f_equal (hd []) E)).
Qed.

