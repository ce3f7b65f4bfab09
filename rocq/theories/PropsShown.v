(** C107: what an invocation prints about a recorded call. *)
From Coq Require Import List Ascii String Bool Arith NArith Lia.
From stdpp Require Import gmap.
From Verif Require Import Base Utf8 Lossy Decimal Env Dirs Opts Targets Sha1 Fs Write Meta Build Harness Entries PropsHarness PropsEntries Run RunFacts PropsRun PropsRun5 Shown.
From Verif Require PropsEndToEnd EndToEnd PropsRun2.
Import ListNotations.
Local Open Scope nat_scope.

(** * Specification *)

(** The operating system, for the entries of directory [d] in file system [m], with [u] as
    user code, [h] the environment of the harness: the listing is that of the directory,
    files can be opened, a process started on a file ends within the time limit, and is the
    harness given the contents of the file. *)
Definition runs_harness {A R} (x : texts A R) (status : hresult -> str) (u : user A R) (h : env) (nontrivial : bool) (m : fs) (d : path)
    (ns : list bytes) (s : eio) : Prop :=
  e_exists s = true /\ e_list s = Some (map Some ns) /\ lists_dir m d ns /\ (forall n, In n ns -> e_open s n = true) /\
  forall n, In n ns -> n <> lit "README.txt" -> n <> lit ".state" ->
    exists data, fs_read m (d ++ [n]) = Some data /\ e_proc s n = process_of x status (entry u h nontrivial data).

(** How stderr of an entry is printed. *)
Definition line (n : bytes) (text : bytes) (status : str) : str :=
  lossy n ++ lit ": " ++
  match text with
  | [] => status ++ [LF]
  | _ => lossy text ++ (if ascii_dec (List.last text LF) LF then [] else [LF])
  end.

(** Nothing in the environment already switches the harness. *)
Definition unswitched (e : env) : Prop :=
  ~ switched_on e (lit "TEST_FUZZ_COVERAGE") /\ ~ switched_on e (lit "TEST_FUZZ_DISPLAY") /\ ~ switched_on e (lit "TEST_FUZZ_REPLAY") /\
  ~ switched_on e (lit "TEST_FUZZ_PRETTY_PRINT").

(** The text for a call with arguments [a] that ends with [r] ([None]: panics); a text
    that stops at a panic is followed by the panic's message. *)
Definition call_text {A R} (x : texts A R) (o : opts) (nontrivial : bool) (a : A) (r : option R) : bytes :=
  (if is_some (o_coverage o) && nontrivial then nontrivial_text x else []) ++
  (if is_some (o_display o) then x_args x (o_pretty o) a ++ [LF] else []) ++
  (if is_some (o_coverage o) || is_some (o_replay o) then
     x_call x a ++ match r with Some r => if is_some (o_replay o) then x_ret x (o_pretty o) r ++ [LF] else [] | None => [] end
   else []).

(** * Proofs *)

Lemma last_rev_match (b : bytes) :
  b <> [] -> match rev b with [] => True | l :: _ => l = List.last b LF end.
Proof.
  intros N. destruct b as [|c b] using rev_ind; [contradiction|]. rewrite rev_app_distr. cbn [rev app].
  now rewrite List.last_last.
Qed.

Lemma proc_line {A R} (x : texts A R) status s n r rep :
  e_proc s n = process_of x status r -> proc_report s n rep -> rep = line n (stderr_of x r) (status (snd r)).
Proof.
  intros E P. unfold process_of in E. unfold line. destruct P as [(b & K & _)|(b & ok & shown & K & H)]; [congruence|].
  rewrite E in K. injection K as <- _ <-. destruct H as [(N & H)|(Em & ->)].
  - destruct H as [(Em & _)|[(_ & L & ->)|(_ & L & ->)]]; [contradiction| |].
    + destruct (stderr_of x r) as [|c b] eqn:Eb; [contradiction|]. rewrite <- Eb in *. destruct (ascii_dec (List.last (stderr_of x r) LF) LF) as [_|N']; [now rewrite app_nil_r|].
      exfalso. apply N'. destruct L as (t & ->). apply List.last_last.
    + destruct (stderr_of x r) as [|c b] eqn:Eb; [contradiction|]. rewrite <- Eb in *. destruct (ascii_dec (List.last (stderr_of x r) LF) LF) as [Y|_]; [|reflexivity].
      exfalso. apply L. exists (removelast (stderr_of x r)). rewrite <- Y at 1. apply app_removelast_last. congruence.
  - rewrite Em. reflexivity.
Qed.

Lemma reports_lines {A R} (x : texts A R) (status : hresult -> str) (u : user A R) (h : env) (nontrivial : bool) (m : fs) (d : path) (s : eio) (ns : list bytes) (reports : list str) :
  (forall n, In n ns -> exists data, fs_read m (d ++ [n]) = Some data /\ e_proc s n = process_of x status (entry u h nontrivial data)) ->
  List.Forall2 (report false s) ns reports ->
  reports = map (fun n => match fs_read m (d ++ [n]) with
                          | Some data => line n (stderr_of x (entry u h nontrivial data)) (status (snd (entry u h nontrivial data)))
                          | None => []
                          end) ns.
Proof.
  intros H F. induction F as [|n r ns reports P F IH]; [reflexivity|]. cbn [map]. f_equal; [|apply IH; intros k I; apply H; now right].
  destruct (H n (or_introl eq_refl)) as (data & -> & E). exact (proc_line x status s n _ r E P).
Qed.

(** C107: a successful invocation that shows a target prints, for every entry of the chosen
    directory in the order of the listing, its name and what the harness writes to stderr
    given its contents (or its status if that is nothing), and nothing else. *)
Theorem C107_shown :
  forall (A R : Type) (x : texts A R) (status : hresult -> str) (u : user A R) (nontrivial : bool) (w : world) (o : opts) (m m' : fs) (t : list act)
         (ex : executable) (tg : str) (ob : object) (rct : bool) (d : path) (ns : list bytes) (llvm : list (bytes * bytes)) (program : bytes) (parent : list (bytes * bytes)),
    run w o m = (m', t, ROk tt) -> asks o JShow ->
    (o_coverage o = Some ob \/ (o_coverage o = None /\ o_display o = Some ob) \/
     (o_coverage o = None /\ o_display o = None /\ o_replay o = Some ob)) ->
    PropsRun2.reached w o t ex tg ->
    flags_and_dir (q_td (w_cargo w)) (w_id w) ob (ex_name ex) tg = Ret (rct, false, d) ->
    let h := entry_harness_env o llvm program parent in
    runs_harness x status u h nontrivial m d ns (w_eio w ex tg) ->
    exists es, In (ATarget ex tg d es) t /\
      stdout es = List.concat (map (fun n => match fs_read m (d ++ [n]) with
                                             | Some data => line n (stderr_of x (entry u h nontrivial data)) (status (snd (entry u h nontrivial data)))
                                             | None => []
                                             end) (entries ns)) /\
      started es = entries ns.
Proof.
  intros A R x status u nt w o m m' t ex tg ob rct d ns llvm program parent E As Ob Re FD h (Ex & Li & Ld & Op & Pr).
  destruct (proj2 (C42_shown_targets_exact w o m m' t E As ex tg) Re) as (d' & es & I).
  pose proof (C100_nothing_ignored w o m m' t E) as S. rewrite Forall_forall in S. apply elem_of_list_In in I. pose proof (S _ I) as S1. clear S. apply elem_of_list_In in I.
  cbn [succeeded] in S1. destruct S1 as (ob' & rct' & raw & Ob' & FD' & FE).
  assert (ob' = ob) as -> by (destruct Ob as [Ob|[[? Ob]|(? & ? & Ob)]], Ob' as [Ob'|[[? Ob']|(? & ? & Ob')]]; congruence).
  rewrite FD in FD'. injection FD' as <- <- <-. exists es. split; [exact I|].
  assert (Io : no_io_error false (w_eio w ex tg) ns).
  { split; [exact Op|]. intros n In' e Ke. apply (proj1 (C50_entries_exact ns n)) in In' as (In' & N1 & N2).
    destruct (Pr n In' N1 N2) as (data & _ & K). rewrite K in Ke. discriminate. }
  destruct (C50_each_entry_once d o tg rct false (w_eio w ex tg) ns Ex Li Io) as (es' & reports & FE' & F2 & So & St).
  rewrite FE in FE'. injection FE' as <-. rewrite So. split; [|exact St]. f_equal.
  apply (reports_lines x status u h nt m d (w_eio w ex tg)); [|exact F2].
  intros n J. apply (proj1 (C50_entries_exact ns n)) in J as (J & N1 & N2). exact (Pr n J N1 N2).
Qed.
Print Assumptions C107_shown.

(** C107: after the entries, an invocation that shows a target says at most one thing on
    stderr: that there are no entries; that no harness failed or wrote anything; or, if it
    only displays, that some harness failed. *)
Theorem C107_afterwards :
  forall (A R : Type) (x : texts A R) (status : hresult -> str) (u : user A R) (nontrivial : bool) (dir : path) (o : opts) (target : str) (rct : bool)
         (h : env) (m : fs) (ns : list bytes) (s : eio) (es : list ev),
    runs_harness x status u h nontrivial m dir ns s -> for_each_entry dir o target rct false s = (es, Ret tt) ->
    let of_entry (P : list (hevent A R) * hresult -> Prop) (n : bytes) := exists data, fs_read m (dir ++ [n]) = Some data /\ P (entry u h nontrivial data) in
    let some_fails := exists n, In n (entries ns) /\ of_entry (fun r => snd r <> HPass) n in
    let some_writes := exists n, In n (entries ns) /\ of_entry (fun r => stderr_of x r <> []) n in
    let only_displays := o_coverage o = None /\ o_replay o = None in
    (notes es = [lit "Nothing to " ++ present_participle o ++ lit "."] <-> entries ns = []) /\
    (entries ns <> [] ->
      (notes es = [lit "No output on stderr detected."] <-> ~ some_fails /\ ~ some_writes) /\
      (notes es = [lit "Encountered a failure while not generating coverage and not replaying. A buggy Debug implementation perhaps?"] <-> some_fails /\ only_displays) /\
      (notes es = [] <-> (some_fails \/ some_writes) /\ ~ (some_fails /\ only_displays))).
Proof.
  intros A R x status u nt dir o tg rct h m ns s es (Ex & Li & Ld & Op & Pr) FE of_entry some_fails some_writes only_displays.
  destruct (C51_summary_exact dir o tg rct false s ns es Li FE) as (mm & Sm & ->).
  assert (En : forall n, In n (entries ns) -> exists data, fs_read m (dir ++ [n]) = Some data /\ e_proc s n = process_of x status (entry u h nt data)).
  { intros n I. apply (proj1 (C50_entries_exact ns n)) in I as (I & N1 & N2). exact (Pr n I N1 N2). }
  assert (Ff : (false = false /\ exists n, In n (entries ns) /\ failed s n) <-> some_fails).
  { split.
    - intros (_ & n & I & b & sh & K). exists n. split; [exact I|]. destruct (En n I) as (data & L & P). exists data. split; [exact L|].
      rewrite K in P. unfold process_of in P. destruct (snd (entry u h nt data)); [discriminate P|discriminate..].
    - intros (n & I & data & L & F). split; [reflexivity|]. exists n. split; [exact I|]. destruct (En n I) as (data' & L' & P). rewrite L in L'. injection L' as <-.
      unfold failed. rewrite P. unfold process_of. destruct (snd (entry u h nt data)); [contradiction|eauto..]. }
  assert (Ft : ~ (false = false /\ exists n, In n (entries ns) /\ timed_out s n)).
  { intros (_ & n & I & b & K). destruct (En n I) as (data & _ & P). rewrite K in P. discriminate P. }
  assert (Fw : (exists n, In n (entries ns) /\ gave_output false s n) <-> some_writes).
  { split.
    - intros (n & I & b & N & K). exists n. split; [exact I|]. destruct (En n I) as (data & L & P). exists data. split; [exact L|].
      destruct K as [K|(ok & sh & K)]; rewrite K in P; [discriminate P|]. unfold process_of in P. injection P as -> _ _. exact N.
    - intros (n & I & data & L & F). exists n. split; [exact I|]. destruct (En n I) as (data' & L' & P). rewrite L in L'. injection L' as <-.
      exists (stderr_of x (entry u h nt data)). split; [exact F|]. right. unfold process_of in P. eauto. }
  assert (Qo : (o_coverage o <> None \/ o_replay o <> None) <-> ~ only_displays).
  { unfold only_displays. destruct (o_coverage o), (o_replay o); intuition congruence. }
  assert (Qd : only_displays \/ ~ only_displays).
  { unfold only_displays. destruct (o_coverage o), (o_replay o); intuition congruence. }
  unfold summary in Sm. rewrite Ff, Fw, Qo in Sm.
  assert (T1 : forall a, lit "Nothing to " ++ a <> lit "No output on stderr detected.") by (intros a; discriminate).
  assert (T2 : forall a, lit "Nothing to " ++ a <> buggy_debug (lit "failure")) by (intros a; discriminate).
  assert (T3 : lit "No output on stderr detected." <> buggy_debug (lit "failure")) by discriminate.
  change (lit "Encountered a failure while not generating coverage and not replaying. A buggy Debug implementation perhaps?") with (buggy_debug (lit "failure")).
  set (nothing := lit "Nothing to " ++ present_participle o ++ lit ".") in *.
  assert (T1' : nothing <> lit "No output on stderr detected.") by apply T1. assert (T2' : nothing <> buggy_debug (lit "failure")) by apply T2. clear T1 T2.
  set (t1 := lit "No output on stderr detected.") in *. set (t2 := buggy_debug (lit "failure")) in *. clearbody nothing t1 t2.
  assert (Inj : forall a b : str, [a] = [b] <-> a = b) by (intros a b; split; congruence).
  assert (Nil : forall a : str, [a] = [] <-> False) by (intros a; split; [discriminate|contradiction]).
  assert (Nil' : forall a : str, ([] : list str) = [a] <-> False) by (intros a; split; [discriminate|contradiction]).
  destruct Sm as [(E & ->)|[(E & F & _ & G & ->)|[(E & Q & F & ->)|[(_ & _ & _ & F & _)|[(E & Q & [F|[F|F]] & ->)|(E & F & _ & G & ->)]]]]];
    rewrite ?Inj, ?Nil, ?Nil'; try (now elim Ft); clear Ft Ff Fw Qo En Pr; try tauto; intuition congruence.
Qed.
Print Assumptions C107_afterwards.

Lemma harness_switches (o : opts) (llvm : list (bytes * bytes)) (program : bytes) (parent : list (bytes * bytes)) :
  unswitched (env_extend llvm (lookup_last parent)) ->
  let h := entry_harness_env o llvm program parent in
  test_fuzz_enabled h = true /\ coverage_enabled h = is_some (o_coverage o) /\ display_enabled h = is_some (o_display o) /\
  replay_enabled h = is_some (o_replay o) /\ pretty_print_enabled h = o_pretty o.
Proof.
  intros (N1 & N2 & N3 & N4) h. set (e := env_extend llvm (lookup_last parent)) in *.
  destruct (entry_switches o e) as (A1 & _ & A2 & A3 & A4 & A5).
  assert (Eq : forall k, h k = env_extend (entry_envs o) e k) by (intros k; unfold h, e; now rewrite entry_harness_env_eq, env_extend_app).
  assert (Off : forall y, ~ switched_on e (lit "TEST_FUZZ_" ++ y) -> y <> [] -> enabled e y = false).
  { intros y Ny Ne. destruct (enabled e y) eqn:K; [|reflexivity]. destruct Ny. apply enabled_spec in K. destruct y; [contradiction|exact K]. }
  unfold test_fuzz_enabled, coverage_enabled, display_enabled, replay_enabled, pretty_print_enabled in *.
  rewrite !(enabled_ext _ _ _ Eq), A2, A3, A4, A5.
  rewrite (Off (lit "COVERAGE") N1), (Off (lit "DISPLAY") N2), (Off (lit "REPLAY") N3), (Off (lit "PRETTY_PRINT") N4) by discriminate.
  rewrite !orb_false_r. repeat split; exact A1.
Qed.

(** C107: what the harness writes given a file that decodes: as asked, the arguments, and
    the result; it fails exactly if it calls the target and that panics. *)
Theorem C107_text :
  forall (A R : Type) (x : texts A R) (u : user A R) (nontrivial : bool) (o : opts) (data : bytes) (a : A)
         (llvm : list (bytes * bytes)) (program : bytes) (parent : list (bytes * bytes)),
    unswitched (env_extend llvm (lookup_last parent)) ->
    (o_coverage o <> None \/ o_display o <> None \/ o_replay o <> None) ->
    u_decode u data = Decoded a ->
    (o_display o <> None -> u_show_args u a = true) ->
    (o_replay o <> None -> forall r, u_target u a = Some r -> u_show_ret u r = true) ->
    let res := entry u (entry_harness_env o llvm program parent) nontrivial data in
    let calls_it := o_coverage o <> None \/ o_replay o <> None in
    (~ calls_it \/ u_target u a <> None -> snd res = HPass /\ stderr_of x res = call_text x o nontrivial a (u_target u a)) /\
    (calls_it -> u_target u a = None -> snd res = HFail /\ stderr_of x res = call_text x o nontrivial a None ++ x_panic x (fst res)).
Proof.
  intros A R x u nt o data a llvm program parent Un Mode De Sa Sr res calls_it.
  destruct (harness_switches o llvm program parent Un) as (H1 & H2 & H3 & H4 & H5).
  assert (Is : forall B (y : option B), is_some y = true <-> y <> None) by (intros B [y|]; cbn; split; congruence).
  unfold calls_it. rewrite <- (Is _ (o_coverage o)), <- (Is _ (o_display o)), <- (Is _ (o_replay o)) in Mode.
  rewrite <- (Is _ (o_display o)) in Sa. rewrite <- (Is _ (o_replay o)) in Sr. rewrite <- (Is _ (o_coverage o)), <- (Is _ (o_replay o)).
  unfold res, call_text, entry, entry_body, stderr_of, warn_first, input_args, output_args, call, output_ret.
  rewrite H1, H2, H3, H4, H5, De. clear res calls_it H1 H2 H3 H4 H5.
  destruct (is_some (o_coverage o)), (is_some (o_display o)), (is_some (o_replay o)), nt; cbn [orb andb];
    try (exfalso; destruct Mode as [K|[K|K]]; discriminate K);
    unfold hthen, hbind, hemit, hret, hpanic; cbn [fst snd app];
    try rewrite (Sa eq_refl); cbn [fst snd app];
    destruct (u_target u a) as [r|]; cbn [fst snd app];
    try rewrite (Sr eq_refl r eq_refl); cbn [fst snd app map List.concat event_text app];
    rewrite ?app_nil_r, <- ?app_assoc;
    (split; [intros H|intros H1 H2]);
    try (exfalso; destruct H as [H|H]; [apply H; first [now left|now right]|congruence]);
    try discriminate;
    try (exfalso; destruct H1 as [H1|H1]; discriminate H1);
    (split; [|cbn [app]; rewrite ?app_nil_r, <- ?app_assoc]; reflexivity).
Qed.
Print Assumptions C107_text.

(** C107: a file that does not decode is shown as an empty line, and is no failure. *)
Theorem C107_undecoded :
  forall (A R : Type) (x : texts A R) (u : user A R) (nontrivial : bool) (o : opts) (data : bytes)
         (llvm : list (bytes * bytes)) (program : bytes) (parent : list (bytes * bytes)),
    unswitched (env_extend llvm (lookup_last parent)) ->
    (o_coverage o <> None \/ o_display o <> None \/ o_replay o <> None) ->
    u_decode u data = NotDecoded ->
    let res := entry u (entry_harness_env o llvm program parent) nontrivial data in
    snd res = HPass /\
    stderr_of x res = (if is_some (o_coverage o) && nontrivial then nontrivial_text x else []) ++
                      (if is_some (o_display o) then [LF] else []) ++ (if is_some (o_replay o) then [LF] else []).
Proof.
  intros A R x u nt o data llvm program parent Un Mode De res.
  destruct (harness_switches o llvm program parent Un) as (H1 & H2 & H3 & H4 & H5).
  assert (Is : forall B (y : option B), is_some y = true <-> y <> None) by (intros B [y|]; cbn; split; congruence).
  rewrite <- (Is _ (o_coverage o)), <- (Is _ (o_display o)), <- (Is _ (o_replay o)) in Mode.
  unfold res, entry, entry_body, stderr_of, warn_first, input_args, output_args, call, output_ret.
  rewrite H1, H2, H3, H4, H5, De. clear res H1 H2 H3 H4 H5.
  destruct (is_some (o_coverage o)), (is_some (o_display o)), (is_some (o_replay o)), nt; cbn [orb andb];
    try (exfalso; destruct Mode as [K|[K|K]]; discriminate K);
    unfold hthen, hbind, hemit, hret, hpanic; cbn [fst snd app map List.concat event_text];
    rewrite ?app_nil_r, <- ?app_assoc; (split; [|cbn [app]; rewrite ?app_nil_r, <- ?app_assoc]; reflexivity).
Qed.
Print Assumptions C107_undecoded.

(** C107: the warnings in full: what a harness says that is not asked to fuzz, and what one
    says, before anything else, that is asked for the coverage of a function with several
    statements. *)
Theorem C107_warnings :
  forall (A R : Type) (x : texts A R) (u : user A R) (e : Env.env) (nontrivial : bool) (data : bytes),
    (test_fuzz_enabled e = false ->
     stderr_of x (entry u e nontrivial data) =
     lit "If you are trying to run a test-fuzz-generated fuzzing harness, be sure to run with `TEST_FUZZ=1`." ++ [LF]) /\
    (test_fuzz_enabled e = true -> coverage_enabled e = true -> nontrivial = true ->
     exists l c rest, numeral (x_line x) l /\ numeral (x_column x) c /\
       stderr_of x (entry u e nontrivial data) =
       (x_file x ++ lit ":" ++ l ++ lit ":" ++ c ++ lit ": Warning: Coverage will not be shown for `" ++ x_ident x
        ++ lit "`. To see coverage for `" ++ x_ident x ++ lit "`, apply `test-fuzz` to a wrapper function that calls `" ++ x_ident x ++ lit "`."
        ++ [LF]) ++ rest).
Proof.
  intros A R x u e nt data. split.
  - intros T. unfold entry, entry_body, warn_first, stderr_of. rewrite T. cbn. reflexivity.
  - intros T C ->. exists (dec (x_line x)), (dec (x_column x)).
    destruct (C30_coverage_warning A R u e true data) as [W1 W2].
    destruct (W2 (proj2 W1 (conj T (conj C eq_refl)))) as (t' & E & _).
    unfold stderr_of. rewrite E. cbn [map List.concat event_text]. eexists. split; [apply dec_numeral|]. split; [apply dec_numeral|].
    unfold nontrivial_text. rewrite <- !app_assoc. reflexivity.
Qed.
Print Assumptions C107_warnings.

(** C107: everything together: a call recorded in the corpus, the file of which is still
    there, is shown by an invocation that shows the corpus of its target, in one place,
    with its arguments and its result as asked. *)
Theorem C107_recorded_call :
  forall (R : Type) mw z i n env rs vars vals stored (w : world) (ex : executable) (tg : str) (d : path) (m : fs) (data : bytes),
    PropsEndToEnd.fields_of mw vars rs stored -> PropsEndToEnd.rebuilt mw rs stored vals ->
    List.Forall2 (PropsEndToEnd.survives i env) rs stored -> data = EndToEnd.args_data z i rs n stored ->
    dir_from_target (q_td (w_cargo w)) (w_id w) Corpus (ex_name ex) tg = Ret d -> fs_read m (d ++ [corpus_name data]) = Some data ->
    exists fuel, forall g (u : user (list MacroArgs.val) R) (tgt : list MacroArgs.val -> option R) (x : texts (list MacroArgs.val) R)
        (status : hresult -> str) (nontrivial : bool) (o : opts) (m' : fs) (t : list act) (ns : list bytes)
        (llvm : list (bytes * bytes)) (program : bytes) (parent : list (bytes * bytes)),
      fuel <= g -> PropsEndToEnd.harness_of mw z env g i rs n tgt u ->
      run w o m = (m', t, ROk tt) -> asks o JShow ->
      (o_coverage o = Some Corpus_ \/ (o_coverage o = None /\ o_display o = Some Corpus_) \/
       (o_coverage o = None /\ o_display o = None /\ o_replay o = Some Corpus_)) ->
      PropsRun2.reached w o t ex tg -> unswitched (env_extend llvm (lookup_last parent)) ->
      let h := entry_harness_env o llvm program parent in
      runs_harness x status u h nontrivial m d ns (w_eio w ex tg) ->
      (o_display o <> None -> u_show_args u stored = true) ->
      (o_replay o <> None -> forall r, tgt vals = Some r -> u_show_ret u r = true) ->
      exists es before after, In (ATarget ex tg d es) t /\ PropsEndToEnd.once_in (corpus_name data) (started es) /\
        (tgt vals <> None \/ (o_coverage o = None /\ o_replay o = None) ->
           stdout es = before ++ line (corpus_name data) (call_text x o nontrivial stored (tgt vals)) (status HPass) ++ after) /\
        (tgt vals = None -> o_coverage o <> None \/ o_replay o <> None ->
           exists message, stdout es = before ++ line (corpus_name data) (call_text x o nontrivial stored None ++ message) (status HFail) ++ after).
Proof.
  intros R mw z i n env rs vars vals stored w ex tg d m data F B Sv -> D L.
  destruct (PropsEndToEnd.args_decode_data z i env rs n stored Sv) as (fuel & Dec). exists fuel.
  set (data := EndToEnd.args_data z i rs n stored) in *.
  intros g u tgt x status nt o m' t ns llvm program parent G (Hd & Ht) E As Ob Re Un h Rh Sa Sr.
  assert (FD : flags_and_dir (q_td (w_cargo w)) (w_id w) Corpus_ (ex_name ex) tg = Ret (true, false, d)) by (cbn [flags_and_dir]; now rewrite D).
  destruct (C107_shown _ _ x status u nt w o m m' t ex tg Corpus_ true d ns llvm program parent E As Ob Re FD Rh) as (es & I & So & St).
  destruct Rh as (_ & _ & (_ & ND & LD) & _).
  assert (N : List.NoDup (entries ns)) by (apply (proj2 (C50_entries_exact ns [])); now apply NoDup_ListNoDup).
  assert (J : In (corpus_name data) (entries ns)).
  { apply (proj1 (C50_entries_exact ns (corpus_name data))). split; [apply LD; unfold fs_read in L; intros K; rewrite K in L; discriminate|].
    split; apply corpus_name_neq; discriminate. }
  assert (De : u_decode u data = Decoded stored) by (rewrite Hd; now apply Dec).
  assert (Tg : u_target u stored = tgt vals) by (apply Ht; exact B).
  assert (Mode : o_coverage o <> None \/ o_display o <> None \/ o_replay o <> None).
  { destruct Ob as [K|[(_ & K)|(_ & _ & K)]]; rewrite K; [left|right; left|right; right]; discriminate. }
  rewrite <- Tg in Sr. destruct (C107_text _ _ x u nt o data stored llvm program parent Un Mode De Sa Sr) as (T1 & T2). fold h in T1, T2.
  pose proof (PropsEndToEnd.once_in_nodup _ _ N J) as On. pose proof (in_split _ _ J) as (l1 & l2 & El).
  set (f := fun k => match fs_read m (d ++ [k]) with Some y => _ | None => _ end) in So.
  exists es, (List.concat (map f l1)), (List.concat (map f l2)). split; [exact I|]. split; [now rewrite St|].
  assert (So' : stdout es = List.concat (map f l1) ++ line (corpus_name data) (stderr_of x (entry u h nt data)) (status (snd (entry u h nt data))) ++ List.concat (map f l2)).
  { rewrite So, El, map_app, concat_app. cbn [map List.concat]. unfold f at 2. now rewrite L. }
  rewrite So'. clear So So' St I On. rewrite <- Tg. split.
  - intros H. destruct T1 as (Q1 & Q2); [|rewrite Q1, Q2; reflexivity]. destruct H as [H|(H1 & H2)]; [right; exact H|].
    left. rewrite H1, H2. intros [K|K]; now apply K.
  - intros H K. destruct (T2 K H) as (Q1 & Q2). exists (x_panic x (fst (entry u h nt data))). rewrite Q1, Q2. reflexivity.
Qed.
Print Assumptions C107_recorded_call.

(** A target that takes a number and doubles it, but panics on 7 (C29's example); its
    entries with --display and --replay, with --display alone, and of a file that does not
    decode. *)
Definition ex_texts : texts nat nat := {|
  x_args := fun _ a => lit "Args { n: " ++ Decimal.dec (N.of_nat a) ++ lit " }";
  x_ret := fun _ r => lit "Ret(" ++ Decimal.dec (N.of_nat r) ++ lit ")";
  x_call := fun _ => [];
  x_panic := fun _ => lit "thread panicked";
  x_file := lit "src/lib.rs"; x_line := 3; x_column := 4; x_ident := lit "f" |}.
Definition ex_double : user nat nat := {|
  u_decode := fun b => match b with [c] => Decoded (Ascii.nat_of_ascii c) | _ => NotDecoded end;
  u_show_args := fun _ => true;
  u_target := fun a => if Nat.eqb a 7 then None else Some (2 * a);
  u_show_ret := fun _ => true |}.
Example C107_example :
  let shown o b := let r := entry ex_double (entry_harness_env o [] (lit "exe") []) true b in
                   line (lit "ab12") (stderr_of ex_texts r) (lit "Exited(0)") in
  let o1 := {| o_backtrace := false; o_consolidate := false; o_consolidate_all := false; o_coverage := None; o_cpus := None;
               o_display := Some Corpus_; o_exact := false; o_exit_code := false; o_features := []; o_list := false;
               o_manifest_path := None; o_max_total_time := None; o_no_default_features := false; o_no_run := false; o_no_ui := false;
               o_package := None; o_persistent := false; o_pretty := false; o_release := false; o_replay := Some Corpus_; o_reset := false;
               o_reset_all := false; o_resume := false; o_run_until_crash := false; o_slice := 1800; o_test := None; o_timeout := None;
               o_verbose := false; o_ztarget := None; o_zzargs := [] |} in
  shown o1 ["005"%char] = lit "ab12: Args { n: 5 }" ++ [LF] ++ lit "Ret(10)" ++ [LF] /\
  shown o1 ["007"%char] = lit "ab12: Args { n: 7 }" ++ [LF] ++ lit "thread panicked" ++ [LF] /\
  shown o1 [] = lit "ab12: " ++ [LF; LF].
Proof. vm_compute. repeat split. Qed.
