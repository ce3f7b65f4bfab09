(** C50, C51, C72: displaying, replaying and generating coverage. *)
From Coq Require Import Ascii String List Bool Arith NArith Lia.
From stdpp Require Import base gmap.
From Verif Require Import Base Utf8 Lossy Dirs Opts Targets Entries Sha1 Fs Write.
Import ListNotations.

(** A directory, for the examples. *)
Definition ex_dir : path := [lit "t"; lit "queue"].

(** C50: if no operation fails, every file of the directory except README.txt and
    .state is reported exactly once, in listing order; a harness is started once for
    each of them, in that order, unless the object is raw, and then none is. *)
Theorem C50_each_entry_once :
  forall (dir : path) (o : opts) (target : str) (rct raw : bool) (s : eio) (ns : list bytes),
    e_exists s = true -> e_list s = Some (map Some ns) -> no_io_error raw s ns ->
    exists es reports,
      for_each_entry dir o target rct raw s = (es, Ret tt) /\
      Forall2 (report raw s) (entries ns) reports /\
      stdout es = concat reports /\
      started es = (if raw then [] else entries ns).
Proof.
  intros dir o target rct raw s ns Ex Li (Op & Ok).
  destruct (for_each_entry dir o target rct raw s) as [es r] eqn:E.
  destruct (for_each_entry_spec _ _ _ _ _ _ _ _ E) as [(K & _)|[(_ & K & _)|(done & rest & reports & _ & L & F2 & So & M)]];
    try congruence.
  assert (Q : map Some ns = map Some done ++ rest) by congruence. clear L.
  destruct r as [[]|e|]; [| |contradiction].
  - destruct M as (-> & St & _). rewrite app_nil_r in Q.
    assert (ns = done) as ->.
    { clear - Q. revert done Q. induction ns as [|n ns IH]; intros [|d done] Q; try discriminate Q; [reflexivity|].
      injection Q as -> Q. f_equal. now apply IH. }
    exists es, reports. auto.
  - destruct M as (x & rest' & -> & B & _). exfalso.
    assert (I : In x (map Some ns)) by (rewrite Q; apply in_or_app; right; now left).
    apply in_map_iff in I as (n & <- & I). apply broke_breaks in B. destruct B as [B|(n' & [= <-] & [B|(Sk & B)])].
    + discriminate.
    + rewrite (Op n I) in B. discriminate.
    + assert (I' : In n (entries ns)).
      { unfold entries in *. apply filter_In. split; [exact I|].
        destruct (negb _) eqn:Z; [reflexivity|]. cbn [List.filter] in Sk. rewrite Z in Sk. discriminate. }
      specialize (Ok n I'). destruct raw; [contradiction|]. destruct B as [e' B]. now apply (Ok e').
Qed.
Print Assumptions C50_each_entry_once.

(** C50: the entries are exactly the listed names other than README.txt and .state,
    in listing order. *)
Theorem C50_entries_exact :
  forall (ns : list bytes) (n : bytes),
    (In n (entries ns) <-> In n ns /\ n <> lit "README.txt" /\ n <> lit ".state") /\
    (List.NoDup ns -> List.NoDup (entries ns)).
Proof.
  intros ns n. split.
  - unfold entries. rewrite filter_In, negb_true_iff, orb_false_iff, !str_eqb_neq. tauto.
  - apply List.NoDup_filter.
Qed.
Print Assumptions C50_entries_exact.

(** C50: whatever fails, what was reported is the reports of an initial part of the
    listing, and at most the entry whose harness failed was started besides. *)
Theorem C50_failure_stops_in_order :
  forall (dir : path) (o : opts) (target : str) (rct raw : bool) (s : eio) es r,
    for_each_entry dir o target rct raw s = (es, r) -> r <> Ret tt ->
    (exists e, r = Err e) /\ notes es = [] /\
    (es = [] \/
     exists done x rest reports,
       e_list s = Some (map Some done ++ x :: rest) /\ breaks raw s x /\
       Forall2 (report raw s) (entries done) reports /\ stdout es = concat reports /\
       (started es = (if raw then [] else entries done) \/
        raw = false /\ exists n, x = Some n /\ started es = entries done ++ [n])).
Proof.
  intros dir o target rct raw s es r E N.
  destruct (for_each_entry_spec _ _ _ _ _ _ _ _ E) as [(_ & -> & K)|[(_ & _ & -> & K)|(done & rest & reports & _ & L & F2 & So & M)]].
  - subst r. eauto.
  - subst r. eauto.
  - destruct r as [[]|e|]; [now destruct N| |contradiction].
    destruct M as (x & rest' & -> & B & No & St). apply broke_breaks in B. split; [eauto|]. split; [exact No|].
    right. exists done, x, rest', reports. auto.
Qed.
Print Assumptions C50_failure_stops_in_order.

(** C50: an entry has one report; it begins with the entry's name; the report of a
    harness's output ends with a newline. *)
Theorem C50_report_shape :
  forall (raw : bool) (s : eio) (n : bytes) (r : str),
    report raw s n r ->
    (forall r', report raw s n r' -> r' = r) /\
    (exists t, r = lossy n ++ lit ": " ++ t) /\
    (raw = false -> ends_lf r) /\
    (forall b, raw = true -> e_raw s n = Some b -> b <> [] -> ends_lf r).
Proof.
  intros raw s n r H. split; [intros r' H'; eapply report_fun; eauto|].
  split; [eapply report_prefix; eauto|]. split.
  - intros ->. eapply proc_report_ends; eauto.
  - intros b -> R N. destruct H as (b' & R' & H). rewrite R in R'. injection R' as <-.
    eapply shown_buffer_ends; eauto.
Qed.
Print Assumptions C50_report_shape.

(** C50: every harness is started on exactly the target's entry test, uncaptured,
    with the requested time limit (one second by default). *)
Theorem C50_arguments :
  forall (dir : path) (o : opts) (target : str) (rct raw : bool) (s : eio) n a t,
    In (Start n a t) (fst (for_each_entry dir o target rct raw s)) ->
    a = [lit "--exact"; target ++ lit "_fuzz__::entry"; lit "--nocapture"] /\
    (o_timeout o = Some t \/ (o_timeout o = None /\ t = 1%N)).
Proof.
  intros dir o target rct raw s n a t H. apply for_each_entry_starts in H as [-> ->].
  split; [reflexivity|]. destruct (o_timeout o); [now left|now right].
Qed.
Print Assumptions C50_arguments.

(** C50: the objects and their directories; raw are exactly the generic-argument
    objects; the hint to run `cargo test` is given exactly for what `cargo test` records. *)
Theorem C50_directory :
  forall td id ob krate target,
    flags_and_dir td id ob krate target =
    match ob with
    | Corpus_ | CorpusInstrumented => bind (dir_from_target td id Corpus krate target) (fun p => Ret (true, false, p))
    | Crashes | CrashesInstrumented =>
        bind (dir_from_target td id Output krate target) (fun p => Ret (false, false, p ++ [lit "default"; lit "crashes"]))
    | Hangs | HangsInstrumented =>
        bind (dir_from_target td id Output krate target) (fun p => Ret (false, false, p ++ [lit "default"; lit "hangs"]))
    | Queue | QueueInstrumented =>
        bind (dir_from_target td id Output krate target) (fun p => Ret (false, false, p ++ [lit "default"; lit "queue"]))
    | ImplGenericArgs_ => bind (dir_from_target td id ImplGenericArgs krate target) (fun p => Ret (true, true, p))
    | GenericArgs_ => bind (dir_from_target td id GenericArgs krate target) (fun p => Ret (true, true, p))
    end.
Proof.
  intros td id ob krate target. unfold flags_and_dir, output_subdir.
  destruct ob; try reflexivity; destruct (dir_from_target td id Output krate target) as [p|e|];
    try reflexivity; cbn [bind]; unfold pjoin; now rewrite <- app_assoc.
Qed.
Print Assumptions C50_directory.

(** C50: a directly read empty file is reported without a newline. *)
Theorem C50_every_report_ends_with_newline_refuted :
  exists (s : eio) (n : bytes) (r : str) es,
    for_each_entry ex_dir default_opts (lit "t") true true s = (es, Ret tt) /\
    report true s n r /\ stdout es = r /\ ~ ends_lf r.
Proof.
  exists {| e_exists := true; e_list := Some [Some (lit "f")]; e_open := fun _ => true;
            e_raw := fun _ => Some []; e_proc := fun _ => PFail [] |}, (lit "f"), (lit "f: ").
  eexists. split; [vm_compute; reflexivity|]. split.
  - exists []. split; [reflexivity|]. left. split; reflexivity.
  - split; [vm_compute; reflexivity|]. intros [t E]. 
    assert (K : List.last (lit "f: ") "x"%char = LF) by (rewrite E; apply List.last_last). discriminate K.
Qed.
Print Assumptions C50_every_report_ends_with_newline_refuted.

(** Three entries, of which one is not shown, one fails with output and one times out. *)
Definition ex_eio : eio := {|
  e_exists := true;
  e_list := Some [Some (lit "b"); Some (lit "README.txt"); Some (lit "a"); Some (lit "c")];
  e_open := fun _ => true;
  e_raw := fun n => Some n;
  e_proc := fun n => if str_dec n (lit "a") then PTimeout []
                     else if str_dec n (lit "b") then PExit (lit "oops") false (lit "Exited(101)")
                     else PExit [] true (lit "Exited(0)");
|}.

Definition set_display (d r : option object) : opts := {|
  o_backtrace := false; o_consolidate := false; o_consolidate_all := false; o_coverage := None;
  o_cpus := None; o_display := d; o_exact := false; o_exit_code := false; o_list := false;
  o_max_total_time := None; o_no_run := false; o_no_ui := false; o_persistent := false;
  o_pretty := false; o_replay := r; o_reset := false; o_reset_all := false; o_resume := false;
  o_run_until_crash := false; o_slice := 0%N; o_timeout := Some 3%N;
  o_features := []; o_manifest_path := None; o_no_default_features := false; o_package := None;
  o_release := false; o_test := None; o_verbose := false; o_ztarget := None; o_zzargs := [] |}.

Example C50_example :
  no_io_error false ex_eio [lit "b"; lit "README.txt"; lit "a"; lit "c"] /\
  entries [lit "b"; lit "README.txt"; lit "a"; lit "c"] = [lit "b"; lit "a"; lit "c"] /\
  stdout (fst (for_each_entry ex_dir (set_display None (Some Queue)) (lit "t") false false ex_eio))
  = lit "b: oops" ++ [LF] ++ lit "a: Timeout" ++ [LF] ++ lit "c: Exited(0)" ++ [LF] /\
  started (fst (for_each_entry ex_dir (set_display None (Some Queue)) (lit "t") false false ex_eio))
  = [lit "b"; lit "a"; lit "c"] /\
  stdout (fst (for_each_entry ex_dir (set_display (Some GenericArgs_) None) (lit "t") true true ex_eio))
  = lit "b: b" ++ [LF] ++ lit "a: a" ++ [LF] ++ lit "c: c" ++ [LF].
Proof.
  split; [|vm_compute; auto]. split; [reflexivity|].
  intros n H e. unfold ex_eio, e_proc. destruct (str_dec n (lit "a")); [discriminate|].
  destruct (str_dec n (lit "b")); discriminate.
Qed.

(** C51: the message after the entries, exactly ([summary] is a specification). *)
Theorem C51_summary_exact :
  forall (dir : path) (o : opts) (target : str) (rct raw : bool) (s : eio) (ns : list bytes) es,
    e_list s = Some (map Some ns) -> for_each_entry dir o target rct raw s = (es, Ret tt) ->
    exists m, summary o raw s (entries ns) m /\ notes es = match m with Some m => [m] | None => [] end.
Proof.
  intros dir o target rct raw s ns es L E.
  destruct (for_each_entry_spec _ _ _ _ _ _ _ _ E) as [(_ & _ & K)|[(_ & _ & _ & K)|(done & rest & reports & _ & L' & _ & _ & -> & _ & M)]];
    try discriminate.
  rewrite app_nil_r, L in L'. injection L' as L'.
  assert (ns = done) as ->; [|exact M].
  clear - L'. revert done L'. induction ns as [|n ns IH]; intros [|d done] Q; try discriminate Q; [reflexivity|].
  injection Q as -> Q. f_equal. now apply IH.
Qed.
Print Assumptions C51_summary_exact.

(** C51: a failing or hanging entry never makes the command fail: it fails only if
    the directory is missing or cannot be listed or some operation on a listed
    name fails.  The internal assertion always holds. *)
Theorem C51_failures_are_not_errors :
  forall (dir : path) (o : opts) (target : str) (rct raw : bool) (s : eio),
    snd (for_each_entry dir o target rct raw s) = Ret tt \/
    (exists e, snd (for_each_entry dir o target rct raw s) = Err e) /\
    (e_exists s = false \/ e_list s = None \/
     exists ns x, e_list s = Some ns /\ In x ns /\ breaks raw s x).
Proof.
  intros dir o target rct raw s. destruct (for_each_entry dir o target rct raw s) as [es r] eqn:E. cbn [snd].
  destruct (for_each_entry_spec _ _ _ _ _ _ _ _ E) as [(A & _ & K)|[(_ & A & _ & K)|(done & rest & reports & _ & L & F2 & So & M)]].
  - subst r. eauto 6.
  - subst r. eauto 6.
  - destruct r as [[]|e|]; [now left| |contradiction]. right. split; [eauto|]. right; right.
    destruct M as (x & rest' & -> & B & _). apply broke_breaks in B. eexists _, x. split; [exact L|]. split; [|exact B].
    apply in_or_app; right; now left.
Qed.
Print Assumptions C51_failures_are_not_errors.

(** C51: the message of a failure names the operation and the path. *)
Theorem C51_error_text :
  forall (dir : path) (o : opts) (target : str) (rct raw : bool) (s : eio) (es : list ev) (e : str),
    for_each_entry dir o target rct raw s = (es, Err e) ->
    let failed_at op p := e = lit "`" ++ lit op ++ lit "` failed for `" ++ lossy (path_text p) ++ lit "`" in
    (e_exists s = false /\ rct = true /\
       e = lit "Could not find `" ++ lossy (path_text dir) ++ lit "`. Did you remember to run `cargo test`?") \/
    (e_exists s = false /\ rct = false /\ e = lit "Could not find `" ++ lossy (path_text dir) ++ lit "`") \/
    (e_exists s = true /\ e_list s = None /\ failed_at "read_dir"%string dir) \/
    exists done x rest, e_list s = Some (map Some done ++ x :: rest) /\
      match x with
      | None => failed_at "read_dir"%string dir
      | Some n =>
          (e_open s n = false /\ failed_at "open"%string (dir ++ [n])) \/
          (n <> lit "README.txt" /\ n <> lit ".state" /\
           ((raw = true /\ e_raw s n = None /\ failed_at "read_to_end"%string (dir ++ [n])) \/
            (raw = false /\ e_proc s n = PFail e)))
      end.
Proof.
  intros dir o target rct raw s es e E failed_at.
  destruct (for_each_entry_spec _ _ _ _ _ _ _ _ E) as [(A & _ & K)|[(A & B & _ & K)|(done & rest & reports & _ & L & _ & _ & M)]].
  - assert (K' : e = lit "Could not find `" ++ lossy (path_text dir) ++ lit "`" ++ (if rct then lit ". Did you remember to run `cargo test`?" else [])) by now inversion K.
    destruct rct; [left|right; left]; (split; [exact A|split; [reflexivity|exact K']]).
  - right; right; left. split; [exact A|]. split; [exact B|]. change (e = failed_for (lit "read_dir") dir). congruence.
  - right; right; right. destruct M as (x & rest' & -> & B & _). exists done, x, rest'. split; [exact L|].
    assert (X : forall n, entries [n] = [n] -> n <> lit "README.txt" /\ n <> lit ".state").
    { intros n En. assert (I : In n (entries [n])) by (rewrite En; now left). now apply C50_entries_exact in I. }
    subst failed_at. cbv beta. clear E.
    destruct B as [|n O|n _ -> En R|n e' _ -> En R]; [reflexivity|left; split; [exact O|reflexivity]|right..];
      destruct (X n En) as [N1 N2]; (split; [exact N1|]); (split; [exact N2|]); [left|right]; (split; [reflexivity|]); [split; [exact R|reflexivity]|exact R].
Qed.
Print Assumptions C51_error_text.

(** C51: the word for what was being done. *)
Theorem C51_participle :
  forall o : opts,
    present_participle o =
    match o_coverage o, o_display o, o_replay o with
    | None, None, None => []
    | Some _, None, None => lit "generate coverage for"
    | None, Some _, None => lit "display"
    | None, None, Some _ => lit "replay"
    | Some _, Some _, None => lit "generate coverage for/display"
    | Some _, None, Some _ => lit "generate coverage for/replay"
    | None, Some _, Some _ => lit "display/replay"
    | Some _, Some _, Some _ => lit "generate coverage for/display/replay"
    end.
Proof.
  intros o. unfold present_participle. destruct (o_coverage o), (o_display o), (o_replay o); reflexivity.
Qed.
Print Assumptions C51_participle.

Example C51_example :
  notes (fst (for_each_entry ex_dir (set_display (Some Corpus_) None) (lit "t") false false ex_eio))
  = [buggy_debug (lit "failure")] /\
  notes (fst (for_each_entry ex_dir (set_display (Some Corpus_) (Some Corpus_)) (lit "t") false false ex_eio)) = [] /\
  notes (fst (for_each_entry ex_dir (set_display (Some Corpus_) None) (lit "t") false false
     {| e_exists := true; e_list := Some [Some (lit ".state")]; e_open := fun _ => true;
        e_raw := fun _ => None; e_proc := fun _ => PFail [] |}))
  = [lit "Nothing to display."] /\
  for_each_entry ex_dir (set_display (Some Corpus_) None) (lit "t") true false
     {| e_exists := false; e_list := None; e_open := fun _ => true; e_raw := fun _ => None; e_proc := fun _ => PFail [] |}
  = ([], Err (lit "Could not find `/t/queue`. Did you remember to run `cargo test`?")) /\
  for_each_entry ex_dir (set_display (Some Corpus_) None) (lit "t") false false
     {| e_exists := true; e_list := Some [Some (lit "a")]; e_open := fun _ => false; e_raw := fun _ => None; e_proc := fun _ => PFail [] |}
  = ([], Err (lit "`open` failed for `/t/queue/a`")) /\
  summary (set_display (Some Corpus_) None) false ex_eio [lit "b"; lit "a"; lit "c"] (Some (buggy_debug (lit "failure"))).
Proof.
  do 5 (split; [vm_compute; reflexivity|]).
  right; right; left. split; [discriminate|]. split; [intros [H|H]; now apply H|]. split; [|reflexivity].
  split; [reflexivity|]. exists (lit "b"). split; [now left|]. eexists _, _. reflexivity.
Qed.

(** runtime/src/lib.rs:173,179: what is recorded for an instantiation. *)
Definition generic_data (names : list str) : bytes := join (lit ", ") names.

(** The recordings of a history of instantiations in one directory, runtime/src/lib.rs:171-181. *)
Definition instantiations (d : path) (h : list (list str)) : list (path * bytes) :=
  map (fun names => (d, generic_data names)) h.

(** The operating system answers from the directory [d] of the file system [m]; every
    file can be read.  The order of the listing is arbitrary. *)
Definition answers (s : eio) (m : fs) (d : path) (ns : list bytes) : Prop :=
  e_exists s = exists_ m d /\ e_list s = Some (map Some ns) /\ lists_dir m d ns /\
  (forall n, In n ns -> e_open s n = true) /\ (forall n, In n ns -> e_raw s n = fs_read m (d ++ [n])).

(** C72: the recorded text is the type names separated by a comma and a space. *)
Theorem C72_recorded_text :
  (generic_data [] = []) /\ (forall n, generic_data [n] = n) /\
  (forall n n' ns, generic_data (n :: n' :: ns) = n ++ lit ", " ++ generic_data (n' :: ns)).
Proof.
  split; [reflexivity|]. split; [intros n; apply app_nil_r || reflexivity|]. intros. reflexivity.
Qed.
Print Assumptions C72_recorded_text.

(** C72: after any history of instantiations recorded in a fresh directory,
    displaying it succeeds, starts no process and shows the text of every distinct
    instantiation exactly once, each after the name of its file and (unless empty)
    before a newline. *)
Theorem C72_displayed_once :
  forall (o : opts) (target : str) (m : fs) (d : path) (h : list (list str)) (s : eio) (ns : list bytes),
    h <> [] -> usable m d -> (forall n, m !! (d ++ [n]) = None) ->
    no_collision (instantiations d h) ->
    (forall names, In names h -> valid_utf8 (generic_data names) = true /\ ~ ends_lf (generic_data names)) ->
    answers s (record_all m (instantiations d h)) d ns ->
    exists es texts reports,
      for_each_entry d o target true true s = (es, Ret tt) /\ started es = [] /\
      List.NoDup texts /\ (forall t, In t texts <-> exists names, In names h /\ t = generic_data names) /\
      Forall2 (fun t r => exists n, length n = 40 /\ Forall is_hex_char n /\ unhex n = Some (sha1 t) /\
                 r = n ++ lit ": " ++ t ++ (if str_dec t [] then [] else [LF])) texts reports /\
      stdout es = concat reports.
Proof.
  intros o target m d h s ns Hne U Fr NC V (Ex & Li & (Dd & ND & LD) & Op & Rd).
  set (H := instantiations d h) in *. set (m' := record_all m H) in *.
  assert (IH : forall d' x, In (d', x) H <-> d' = d /\ exists names, In names h /\ x = generic_data names).
  { intros d' x. unfold H, instantiations. rewrite in_map_iff. split.
    - intros (names & [= <- <-] & I). eauto.
    - intros (-> & names & I & ->). eauto. }
  assert (Sep : separate H).
  { intros d1 x1 d2 x2 y I1 I2 (q & Q). apply IH in I1 as (-> & _). apply IH in I2 as (-> & _).
    apply (f_equal (@length _)) in Q. rewrite !app_length in Q. cbn [length] in Q. lia. }
  assert (Us : forall d' x, In (d', x) H -> usable m d') by (intros d' x I; apply IH in I as (-> & _); exact U).
  destruct (record_all_spec m H Us Sep) as (A & B & _ & _). fold m' in A, B.
  assert (Fl : forall n, In n ns <-> exists names, In names h /\ n = corpus_name (generic_data names) /\
                    m' !! (d ++ [n]) = Some (File (generic_data names))).
  { intros n. rewrite LD. split.
    - intros K. destruct (m' !! (d ++ [n])) as [nd|] eqn:L; [|now destruct K].
      apply record_all_lookup in L as [L|[(-> & _ & d' & x & I & P)|(d' & x & I & -> & E)]].
      + rewrite Fr in L. discriminate.
      + apply IH in I as (-> & _). apply is_prefix_spec in P as (q & P).
        apply (f_equal (@length _)) in P. rewrite !app_length in P. cbn [length] in P. lia.
      + apply IH in I as (-> & names & I & ->). apply app_inj_tail in E as [_ ->]. eauto.
    - intros (names & I & -> & L). rewrite L. discriminate. }
  assert (Al : forall names, In names h -> In (corpus_name (generic_data names)) ns).
  { intros names I. apply Fl. destruct (A d (generic_data names)) as (x' & I' & E & L); [apply IH; eauto|].
    exists names. split; [exact I|]. split; [reflexivity|]. rewrite L. do 2 f_equal.
    apply (NC d x' d (generic_data names)); [exact I'|apply IH; eauto|now apply corpus_name_eq]. }
  assert (Ex' : e_exists s = true).
  { rewrite Ex. unfold is_dir in Dd. unfold exists_. destruct d; [reflexivity|].
    destruct (m' !! _); [reflexivity|discriminate]. }
  assert (Sk : forall n, In n ns -> In n (entries ns)).
  { intros n I. apply C50_entries_exact. split; [exact I|].
    apply Fl in I as (names & _ & -> & _). split; apply corpus_name_neq; vm_compute; discriminate. }
  assert (Ens : entries ns = ns).
  { clear - Sk. unfold entries in *. set (f := fun n => _) in *. 
    assert (K : forall l, (forall n, In n l -> f n = true) -> List.filter f l = l).
    { induction l as [|a l IHl]; intros K; [reflexivity|]. cbn [List.filter]. rewrite (K a (or_introl eq_refl)).
      f_equal. apply IHl. intros n I. apply K. now right. }
    apply K. intros n I. apply Sk in I. now apply filter_In in I. }
  destruct (C50_each_entry_once d o target true true s ns Ex' Li) as (es & reports & E & F2 & So & St).
  { split; [exact Op|]. intros n I. apply C50_entries_exact in I as (I & _). rewrite (Rd n I).
    apply Fl in I as (names & _ & _ & L). unfold fs_read. now rewrite L. }
  rewrite Ens in F2.
  set (text := fun n => match fs_read m' (d ++ [n]) with Some b => b | None => [] end).
  assert (Tx : forall n, In n ns -> exists names, In names h /\ text n = generic_data names /\
                 n = corpus_name (generic_data names) /\ e_raw s n = Some (generic_data names)).
  { intros n I. rewrite (Rd n I). unfold text. apply Fl in I as (names & I & E' & L).
    exists names. unfold fs_read. rewrite L. auto. }
  exists es, (map text ns), reports. split; [exact E|]. split; [exact St|]. split; [|split; [|split]].
  - apply NoDup_ListNoDup in ND. clear - ND Tx. induction ns as [|n ns IHn]; cbn [map]; [constructor|].
    inversion ND as [|? ? Ni ND']; subst. constructor; [|apply IHn; [exact ND'|intros; apply Tx; now right]].
    intros I. apply in_map_iff in I as (n' & E & I).
    destruct (Tx n (or_introl eq_refl)) as (a & _ & T1 & N1 & _).
    destruct (Tx n' (or_intror I)) as (a' & _ & T2 & N2 & _).
    apply Ni. rewrite N1, <- T1, <- E, T2, <- N2. exact I.
  - intros t. rewrite in_map_iff. split.
    + intros (n & <- & I). destruct (Tx n I) as (a & Ia & T & _). eauto.
    + intros (names & I & ->). pose proof (Al names I) as J. exists (corpus_name (generic_data names)).
      split; [|exact J]. apply Fl in J as (a & Ia & Ea & L). unfold text, fs_read. rewrite L.
      apply (NC d _ d); [apply IH; eauto|apply IH; eauto|]. now apply corpus_name_eq.
  - clear - F2 Tx V. revert reports F2. induction ns as [|n ns IHn]; intros reports F2.
    + inversion F2; subst. constructor.
    + inversion F2 as [|? r ? rs R F2']; subst. constructor; [|apply IHn; [intros; apply Tx; now right|exact F2']].
      destruct (Tx n (or_introl eq_refl)) as (a & Ia & -> & -> & Rw).
      destruct (V a Ia) as (Va & Na). destruct (corpus_name_spec (generic_data a)) as (L & C & X).
      exists (corpus_name (generic_data a)). split; [exact L|]. split; [exact C|]. split; [exact X|].
      destruct R as (b & Rb & Sb). rewrite Rw in Rb. injection Rb as <-.
      assert (Ln : lossy (corpus_name (generic_data a)) = corpus_name (generic_data a)).
      { apply lossy_valid, ascii_valid. clear - C. induction C as [|c l Hc _ IHl]; constructor; [|exact IHl].
        repeat (destruct Hc as [<-|Hc]; [reflexivity|]). destruct Hc. }
      destruct Sb as [(Z & ->)|[(_ & Z & _)|(Z & _ & ->)]].
      * rewrite Ln. destruct (str_dec (generic_data a) []) as [Q|Q]; [|contradiction]. rewrite Q. now rewrite !app_nil_r.
      * contradiction.
      * rewrite Ln, (lossy_valid _ Va). destruct (str_dec (generic_data a) []) as [Q|Q]; [contradiction|reflexivity].
  - exact So.
Qed.
Print Assumptions C72_displayed_once.

(** C72: the generic arguments of a function without generic parameters are recorded
    as an empty text and displayed without a newline, so the message that follows
    on the other stream or the shell prompt appears on the same line. *)
Theorem C72_nongeneric_newline_refuted :
  exists (m : fs) (d : path) (s : eio) (ns : list bytes) es,
    usable m d /\ (forall n, m !! (d ++ [n]) = None) /\
    answers s (record_all m (instantiations d [[]])) d ns /\
    for_each_entry ex_dir default_opts (lit "t") true true s = (es, Ret tt) /\ ~ ends_lf (stdout es).
Proof.
  exists ∅, [lit "g"].
  exists {| e_exists := true; e_list := Some [Some (corpus_name [])]; e_open := fun _ => true;
            e_raw := fun _ => Some []; e_proc := fun _ => PFail [] |}, [corpus_name []].
  assert (U : usable ∅ [lit "g"]).
  { split; [intros q b _ H; rewrite lookup_empty in H; discriminate|intros x H; rewrite lookup_empty in H; discriminate]. }
  destruct (write_data_ok ∅ [lit "g"] [] U) as (_ & D & W).
  eexists. split; [exact U|]. split; [intros; apply lookup_empty|]. split; [|split].
  - change (record_all ∅ (instantiations [lit "g"] [[]])) with (write_data ∅ [lit "g"] []).1.
    assert (Dg : (write_data ∅ [lit "g"] []).1 !! [lit "g"] = Some Dir).
    { apply D; [discriminate|]. now apply is_prefix_spec; exists []. }
    split; [cbn [e_exists exists_]; now rewrite Dg|]. split; [reflexivity|]. split; [|split].
    + split; [cbn [is_dir]; now rewrite Dg|]. split; [apply NoDup_singleton|].
      intros n. split.
      * intros [<-|[]]. rewrite W. discriminate.
      * intros K. destruct ((write_data ∅ [lit "g"] []).1 !! ([lit "g"] ++ [n])) as [nd|] eqn:L; [|now destruct K].
        apply write_data_lookup in L as [L|[(_ & _ & P)|(_ & E)]].
        -- rewrite lookup_empty in L. discriminate.
        -- apply is_prefix_spec in P as (q & P). apply (f_equal (@length _)) in P. discriminate P.
        -- apply app_inj_tail in E as [_ ->]. now left.
    + reflexivity.
    + intros n [<-|[]]. cbn [e_raw]. unfold fs_read. now rewrite W.
  - vm_compute. reflexivity.
  - intros [t E]. assert (K : List.last (lit ": ") "x"%char = LF); [|discriminate K].
    rewrite <- (List.last_last t LF "x"%char). rewrite <- E. vm_compute. reflexivity.
Qed.
Print Assumptions C72_nongeneric_newline_refuted.

Definition ex_generic_io : eio := {|
  e_exists := true; e_list := Some [Some (corpus_name (lit "u8, u16")); Some (corpus_name (lit "bool, ()"))];
  e_open := fun _ => true;
  e_raw := fun n => if str_dec n (corpus_name (lit "u8, u16")) then Some (lit "u8, u16") else Some (lit "bool, ()");
  e_proc := fun _ => PFail [] |}.

Example C72_example :
  instantiations [lit "g"] [[lit "u8"; lit "u16"]; [lit "bool"; lit "()"]; [lit "u8"; lit "u16"]]
  = [([lit "g"], lit "u8, u16"); ([lit "g"], lit "bool, ()"); ([lit "g"], lit "u8, u16")] /\
  started (fst (for_each_entry ex_dir (set_display (Some GenericArgs_) None) (lit "t") true true ex_generic_io)) = [] /\
  stdout (fst (for_each_entry ex_dir (set_display (Some GenericArgs_) None) (lit "t") true true ex_generic_io))
  = corpus_name (lit "u8, u16") ++ lit ": u8, u16" ++ [LF] ++ corpus_name (lit "bool, ()") ++ lit ": bool, ()" ++ [LF].
Proof. vm_compute. auto. Qed.
