(** Theorems about displaying arguments that cannot be shown (C138). *)
From Coq Require Import List Ascii String Bool Arith NArith Lia.
From stdpp Require Import gmap.
From Verif Require Import Base Utf8 Lossy Decimal Env Dirs Opts Targets Sha1 Fs Write Meta Build Harness Entries PropsHarness PropsEntries Run RunFacts PropsRun PropsRun5 Shown PropsShown Serde DebugTest.
From Verif Require Postcard.
Import ListNotations.
Local Open Scope nat_scope.

(** Whatever is in a file, the harness of the sample that panics fails if it is to show it, and
    without having called the target; and passes if it is only to replay it or to measure coverage. *)
Theorem C138_any_file :
  forall (z k nontrivial : bool) (o : opts) (data : bytes) (llvm : list (bytes * bytes)) (program : bytes) (parent : list (bytes * bytes)),
    unswitched (env_extend llvm (lookup_last parent)) ->
    let r := entry (crash_user z k) (entry_harness_env o llvm program parent) nontrivial data in
    (o_display o <> None -> snd r = HFail /\ calls (fst r) = []) /\
    (o_display o = None -> o_coverage o <> None \/ o_replay o <> None -> snd r = HPass /\ calls (fst r) = [tt]).
Proof.
  intros z k nt o data llvm program parent Un r. destruct (harness_switches o llvm program parent Un) as (H1 & H2 & H3 & H4 & H5).
  assert (De : u_decode (crash_user z k) data = Decoded tt) by reflexivity.
  unfold r, entry, entry_body, warn_first, input_args, output_args, call, output_ret. rewrite H1, H2, H3, H4, H5, De.
  destruct (o_display o); (split; [intros N|intros N M]); try discriminate N; try (now destruct N).
  - destruct (o_coverage o), (o_replay o), nt; cbn; split; reflexivity.
  - destruct (o_coverage o), (o_replay o), nt; cbn; try (split; reflexivity); exfalso; destruct M as [M|M]; now apply M.
Qed.
Print Assumptions C138_any_file.

Lemma check_in s es : In (Note s) es -> display_check [] s es = true.
Proof.
  intros I. unfold display_check. apply andb_true_iff. split; [apply contains_spec; exists []; eexists; reflexivity|].
  apply contains_spec. apply in_split in I as (l & r & ->). rewrite map_app, concat_app. cbn [map List.concat].
  set (f := fun e : ev => match e with Note s => s ++ [LF] | _ => [] end). exists (List.concat (map f l)), ([LF] ++ List.concat (map f r)). now rewrite <- !app_assoc.
Qed.

Lemma notes_in s es : notes es = [s] -> In (Note s) es.
Proof.
  induction es as [|e es IH]; [discriminate|]. destruct e; cbn; intros E; [right; now apply IH|right; now apply IH|]. injection E as ->. now left.
Qed.

(** So displaying any corpus of that sample that has entries succeeds with the text the test looks
    for, as the only remark. *)
Theorem C138_crash :
  forall (z k nontrivial : bool) (x : texts unit unit) (status : hresult -> str) (dir : path) (o : opts) (target : str) (rct : bool)
         (llvm : list (bytes * bytes)) (program : bytes) (parent : list (bytes * bytes)) (m : fs) (ns : list bytes) (s : eio),
    unswitched (env_extend llvm (lookup_last parent)) ->
    o_display o <> None -> o_coverage o = None -> o_replay o = None ->
    runs_harness x status (crash_user z k) (entry_harness_env o llvm program parent) nontrivial m dir ns s -> entries ns <> [] ->
    exists es, for_each_entry dir o target rct false s = (es, Ret tt) /\ notes es = [crash_note] /\ display_check [] crash_note es = true.
Proof.
  intros z k nt x status dir o tg rct llvm program parent m ns s Un Di Co Re H Ne. pose proof H as (Ex & Li & Ld & Op & Pr).
  assert (Io : no_io_error false s ns).
  { split; [exact Op|]. intros n I e Ke. apply (proj1 (C50_entries_exact ns n)) in I as (I & N1 & N2). destruct (Pr n I N1 N2) as (data & _ & K). rewrite K in Ke. discriminate. }
  destruct (C50_each_entry_once dir o tg rct false s ns Ex Li Io) as (es & reports & FE & _). exists es. split; [exact FE|].
  destruct (C107_afterwards unit unit x status (crash_user z k) nt dir o tg rct _ m ns s es H FE) as (_ & A). destruct (A Ne) as (_ & B & _).
  assert (N : notes es = [crash_note]).
  { apply B. split; [|now split]. destruct (entries ns) as [|n l] eqn:E; [contradiction|]. exists n. split; [now left|].
    assert (I : In n (entries ns)) by (rewrite E; now left). apply (proj1 (C50_entries_exact ns n)) in I as (I & N1 & N2). destruct (Pr n I N1 N2) as (data & L & _).
    exists data. split; [exact L|]. destruct (C138_any_file z k nt o data llvm program parent Un) as (F & _). destruct (F Di) as (-> & _). discriminate. }
  split; [exact N|]. now apply check_in, notes_in.
Qed.
Print Assumptions C138_crash.

(** Likewise with the other text for the sample that does not come back, whatever its processes had
    written. *)
Theorem C138_hang :
  forall (dir : path) (o : opts) (target : str) (rct : bool) (ns : list bytes) (s : eio),
    o_coverage o = None -> o_replay o = None ->
    e_exists s = true -> e_list s = Some (map Some ns) -> (forall n, In n ns -> e_open s n = true) ->
    (forall n, In n (entries ns) -> exists b, e_proc s n = hang_process b) -> entries ns <> [] ->
    exists es, for_each_entry dir o target rct false s = (es, Ret tt) /\ notes es = [hang_note] /\ display_check [] hang_note es = true.
Proof.
  intros dir o tg rct ns s Co Re Ex Li Op Pr Ne.
  assert (Io : no_io_error false s ns).
  { split; [exact Op|]. intros n I e Ke. destruct (Pr n I) as (b & K). unfold hang_process in K. congruence. }
  destruct (C50_each_entry_once dir o tg rct false s ns Ex Li Io) as (es & reports & FE & _). exists es. split; [exact FE|].
  destruct (C51_summary_exact dir o tg rct false s ns es Li FE) as (mm & Sm & Nn).
  assert (Nf : ~ (false = false /\ exists n, In n (entries ns) /\ failed s n)).
  { intros (_ & n & I & b & sh & K). destruct (Pr n I) as (b' & K'). unfold hang_process in K'. congruence. }
  assert (Ti : false = false /\ exists n, In n (entries ns) /\ timed_out s n).
  { split; [reflexivity|]. destruct (entries ns) as [|n l] eqn:E; [contradiction|]. exists n. split; [now left|]. destruct (Pr n) as (b & K); [now left|]. now exists b. }
  assert (N : notes es = [hang_note]).
  { rewrite Nn. destruct Sm as [(E & _)|[(_ & _ & T & _)|[(_ & _ & F & _)|[(_ & _ & _ & _ & ->)|[(_ & Q & _)|(_ & _ & T & _)]]]]]; try contradiction; [reflexivity|].
    destruct Q as [Q|Q]; contradiction. }
  split; [exact N|]. now apply check_in, notes_in.
Qed.
Print Assumptions C138_hang.

(** A corpus with two entries and one more file, of each sample; and if only one of the two processes
    had hung. *)
Example C138_example :
  let h k := if str_eqb k (lit "TEST_FUZZ") || str_eqb k (lit "TEST_FUZZ_DISPLAY") then Some (lit "1") else None in
  let x := {| x_args := fun _ _ => lit "Args { s: "; x_ret := fun _ _ => []; x_call := fun _ => []; x_panic := fun _ => lit "bug";
              x_file := []; x_line := 0; x_column := 0; x_ident := [] |} in
  let crash := process_of x (fun _ => lit "exit status: 101") (entry (crash_user true false) h false (lit "data")) in
  let s p := {| e_exists := true; e_list := Some [Some (lit "a"); Some (lit "README.txt"); Some (lit "b")]; e_open := fun _ => true;
                e_raw := fun _ => None; e_proc := p |} in
  let shown p := let r := for_each_entry [lit "corpus"] (set_display (Some Corpus_) None) (lit "crash::target") true false (s p) in (notes (fst r), stdout (fst r), snd r) in
  shown (fun _ => crash) = ([crash_note], lit "a: Args { s: bug" ++ [LF] ++ lit "b: Args { s: bug" ++ [LF], Ret tt) /\
  shown (fun _ => hang_process []) = ([hang_note], lit "a: Timeout" ++ [LF] ++ lit "b: Timeout" ++ [LF], Ret tt) /\
  fst (fst (shown (fun n => if str_eqb n (lit "a") then crash else hang_process []))) = [crash_note].
Proof. vm_compute. repeat split. Qed.
