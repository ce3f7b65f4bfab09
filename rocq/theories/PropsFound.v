(** C109: what fuzzing finds, replaying shows. *)
From Coq Require Import List Ascii String Bool Arith NArith Lia.
From stdpp Require Import gmap.
From Verif Require Import Base Utf8 Lossy Env Dirs Opts Targets Sha1 Fs Write Meta Build Harness Entries PropsHarness PropsEntries Run RunFacts PropsRun PropsRun5 Shown PropsShown.
From Verif Require PropsEndToEnd PropsRun2.
Import ListNotations.
Local Open Scope nat_scope.

(** * Specification *)

(** The input makes user code panic: while it is decoded, or in the target. *)
Definition breaks_it {A R} (u : user A R) (data : bytes) : Prop :=
  u_decode u data = DecodePanic \/ exists a, u_decode u data = Decoded a /\ u_target u a = None.

(** The harness as the fuzzer runs it, on an input. *)
Definition fuzzed {A R} (u : user A R) (ui : bool) (o : opts) (llvm parent : list (bytes * bytes)) (nontrivial : bool) (data : bytes) :=
  entry u (fuzz_harness_env ui o llvm parent) nontrivial data.

(** * Proofs *)

Lemma fuzz_mode (ui : bool) (o : opts) (llvm parent : list (bytes * bytes)) :
  unswitched (env_extend llvm (lookup_last parent)) ->
  let h := fuzz_harness_env ui o llvm parent in
  test_fuzz_enabled h = true /\ coverage_enabled h = false /\ display_enabled h = false /\ replay_enabled h = false.
Proof.
  intros (N1 & N2 & N3 & N4) h. set (e := env_extend llvm (lookup_last parent)) in *.
  destruct (fuzz_switches ui o e) as (A1 & _ & A2 & A3 & A4 & _).
  assert (Eq : forall k, h k = env_extend (fuzz_envs ui o) e k) by (intros k; unfold h, e; now rewrite fuzz_harness_env_eq, env_extend_app).
  assert (Off : forall y, ~ switched_on e (lit "TEST_FUZZ_" ++ y) -> y <> [] -> enabled e y = false).
  { intros y Ny Ne. destruct (enabled e y) eqn:K; [|reflexivity]. destruct Ny. apply enabled_spec in K. destruct y; [contradiction|exact K]. }
  unfold test_fuzz_enabled, coverage_enabled, display_enabled, replay_enabled in *.
  rewrite !(enabled_ext _ _ _ Eq), A1, A2, A3, A4.
  rewrite (Off (lit "COVERAGE") N1), (Off (lit "DISPLAY") N2), (Off (lit "REPLAY") N3) by discriminate. auto.
Qed.

(** C109: the fuzzer sees the process of an input abort exactly if the input makes user code
    panic, and otherwise sees it end normally. *)
Theorem C109_found :
  forall (A R : Type) (u : user A R) (ui : bool) (o : opts) (llvm parent : list (bytes * bytes)) (nontrivial : bool) (data : bytes),
    unswitched (env_extend llvm (lookup_last parent)) ->
    (snd (fuzzed u ui o llvm parent nontrivial data) = HAbort <-> breaks_it u data) /\
    (snd (fuzzed u ui o llvm parent nontrivial data) = HPass <-> ~ breaks_it u data).
Proof.
  intros A R u ui o llvm parent nt data Un. destruct (fuzz_mode ui o llvm parent Un) as (H1 & H2 & H3 & H4).
  unfold fuzzed, breaks_it, entry, entry_body, input_args, call. rewrite H1, H2, H3, H4. cbn [orb].
  unfold hthen, hbind, hemit, hret, hpanic. cbn [fst snd].
  destruct (u_decode u data) as [a| |] eqn:D; cbn [fst snd].
  - destruct (u_target u a) as [r|] eqn:T; cbn [fst snd].
    + assert (N : ~ (Decoded a = DecodePanic \/ exists a', Decoded a = Decoded a' /\ u_target u a' = None)).
      { intros [K|(a' & K & K')]; [discriminate K|]. assert (a' = a) as -> by congruence. congruence. }
      split; split; intros K; try discriminate; try contradiction; auto.
    + assert (N : Decoded a = DecodePanic \/ exists a', Decoded a = Decoded a' /\ u_target u a' = None) by (right; eauto).
      split; split; intros K; try discriminate; try contradiction; auto.
  - assert (N : ~ (@NotDecoded A = DecodePanic \/ exists a', @NotDecoded A = Decoded a' /\ u_target u a' = None)).
    { intros [K|(a' & K & _)]; discriminate K. }
    split; split; intros K; try discriminate; try contradiction; auto.
  - split; split; intros K; try discriminate; auto. exfalso. apply K. now left.
Qed.
Print Assumptions C109_found.

(** C109: the harness fails for the same inputs when replaying (or when generating coverage),
    provided values can be printed. *)
Theorem C109_same_verdict :
  forall (A R : Type) (x : texts A R) (u : user A R) (nontrivial : bool) (o : opts) (data : bytes)
         (llvm : list (bytes * bytes)) (program : bytes) (parent : list (bytes * bytes)),
    unswitched (env_extend llvm (lookup_last parent)) ->
    o_coverage o <> None \/ o_replay o <> None ->
    (forall a, u_decode u data = Decoded a -> (o_display o <> None -> u_show_args u a = true) /\
                                              (o_replay o <> None -> forall r, u_target u a = Some r -> u_show_ret u r = true)) ->
    let res := entry u (entry_harness_env o llvm program parent) nontrivial data in
    (breaks_it u data -> snd res = HFail /\ exists shown, stderr_of x res = shown ++ x_panic x (fst res)) /\
    (~ breaks_it u data -> snd res = HPass).
Proof.
  intros A R x u nt o data llvm program parent Un Mode Sh res.
  assert (Mode' : o_coverage o <> None \/ o_display o <> None \/ o_replay o <> None) by tauto.
  destruct (u_decode u data) as [a| |] eqn:D.
  - destruct (Sh a eq_refl) as (S1 & S2).
    destruct (C107_text _ _ x u nt o data a llvm program parent Un Mode' D S1 S2) as (T1 & T2). fold res in T1, T2.
    unfold breaks_it. rewrite D. split.
    + intros [K|(a' & K & K')]; [discriminate K|]. assert (a' = a) as -> by congruence. destruct (T2 Mode K') as (Q1 & Q2). eauto.
    + intros N. destruct (u_target u a) as [r|] eqn:T; [|exfalso; apply N; right; eauto]. apply T1. right. discriminate.
  - destruct (C107_undecoded _ _ x u nt o data llvm program parent Un Mode' D) as (T1 & _). fold res in T1. split; [|auto].
    intros [K|(a' & K & _)]; congruence.
  - assert (Q : snd res = HFail).
    { destruct (harness_switches o llvm program parent Un) as (H1 & H2 & H3 & H4 & _).
      unfold res, entry, entry_body, input_args. rewrite H1, H2, H3, H4, D. clear - Mode.
      destruct (o_coverage o), (o_replay o), (o_display o), nt; try (exfalso; tauto); reflexivity. }
    split; [|intros N; exfalso; apply N; now left]. intros _. split; [exact Q|].
    unfold stderr_of. rewrite Q. eauto.
Qed.
Print Assumptions C109_same_verdict.

(** C109: everything together.  An input on which the fuzzer saw the target crash, in whichever
    directory of the target it now is under whichever name, is shown as failing, with the message of
    the panic, by an invocation that replays this directory (or generates coverage from it);
    an input on which the fuzzer saw nothing is shown as passing. *)
Theorem C109_replayed :
  forall (A R : Type) (x : texts A R) (status : hresult -> str) (u : user A R) (nontrivial : bool) (w : world) (o : opts) (m m' : fs) (t : list act)
         (ex : executable) (tg : str) (ob : object) (rct : bool) (d : path) (ns : list bytes) (llvm : list (bytes * bytes)) (program : bytes) (parent : list (bytes * bytes))
         (ui : bool) (of : opts) (llvm' parent' : list (bytes * bytes)) (n data : bytes),
    run w o m = (m', t, ROk tt) -> asks o JShow ->
    (o_coverage o = Some ob \/ (o_coverage o = None /\ o_display o = None /\ o_replay o = Some ob)) ->
    PropsRun2.reached w o t ex tg ->
    flags_and_dir (q_td (w_cargo w)) (w_id w) ob (ex_name ex) tg = Ret (rct, false, d) ->
    unswitched (env_extend llvm (lookup_last parent)) -> unswitched (env_extend llvm' (lookup_last parent')) ->
    let h := entry_harness_env o llvm program parent in
    runs_harness x status u h nontrivial m d ns (w_eio w ex tg) ->
    (forall a, (o_display o <> None -> u_show_args u a = true) /\ (o_replay o <> None -> forall r, u_show_ret u r = true)) ->
    In n ns -> n <> lit "README.txt" -> n <> lit ".state" -> fs_read m (d ++ [n]) = Some data ->
    exists es before after text, In (ATarget ex tg d es) t /\ PropsEndToEnd.once_in n (started es) /\
      let verdict := snd (fuzzed u ui of llvm' parent' nontrivial data) in
      stdout es = before ++ line n text (status (match verdict with HAbort => HFail | v => v end)) ++ after /\
      (verdict = HAbort -> exists shown evs, text = shown ++ x_panic x evs).
Proof.
  intros A R x status u nt w o m m' t ex tg ob rct d ns llvm program parent ui of llvm' parent' n data E As Ob Re FD Un Un' h Rh Sh I N1 N2 L.
  assert (Ob' : o_coverage o = Some ob \/ (o_coverage o = None /\ o_display o = Some ob) \/ (o_coverage o = None /\ o_display o = None /\ o_replay o = Some ob)) by tauto.
  destruct (C107_shown _ _ x status u nt w o m m' t ex tg ob rct d ns llvm program parent E As Ob' Re FD Rh) as (es & J & So & St).
  destruct Rh as (_ & _ & (_ & ND & LD) & _).
  assert (N : List.NoDup (entries ns)) by (apply (proj2 (C50_entries_exact ns [])); now apply NoDup_ListNoDup).
  assert (K : In n (entries ns)) by (apply (proj1 (C50_entries_exact ns n)); auto).
  pose proof (PropsEndToEnd.once_in_nodup _ _ N K) as On. pose proof (in_split _ _ K) as (l1 & l2 & El).
  set (f := fun k => match fs_read m (d ++ [k]) with Some y => _ | None => _ end) in So.
  exists es, (List.concat (map f l1)), (List.concat (map f l2)), (stderr_of x (entry u h nt data)). split; [exact J|]. split; [now rewrite St|].
  intros verdict.
  assert (So' : stdout es = List.concat (map f l1) ++ line n (stderr_of x (entry u h nt data)) (status (snd (entry u h nt data))) ++ List.concat (map f l2)).
  { rewrite So, El, map_app, concat_app. cbn [map List.concat]. unfold f at 2. now rewrite L. }
  assert (Mode : o_coverage o <> None \/ o_replay o <> None) by (destruct Ob as [Q|(_ & _ & Q)]; rewrite Q; [left|right]; discriminate).
  destruct (C109_same_verdict _ _ x u nt o data llvm program parent Un Mode) as (V1 & V2).
  { intros a _. destruct (Sh a) as (S1 & S2). split; [exact S1|]. intros Q r _. now apply S2. }
  fold h in V1, V2. destruct (C109_found _ _ u ui of llvm' parent' nt data Un') as (F1 & F2). fold verdict in F1, F2.
  rewrite So'. destruct verdict eqn:Ev.
  - rewrite V2 by (now apply F2). split; [reflexivity|discriminate].
  - exfalso. assert (NB : ~ breaks_it u data) by (intros B; apply F1 in B; discriminate B). apply F2 in NB. discriminate NB.
  - destruct V1 as (Q & shown & T); [now apply F1|]. rewrite Q. split; [reflexivity|]. intros _. eauto.
Qed.
Print Assumptions C109_replayed.

(** The target of C107's example: 7 crashes it when fuzzed, 5 does not; replayed, the first
    shows the message of the panic, the second the result. *)
Example C109_example :
  let o := {| o_backtrace := false; o_consolidate := false; o_consolidate_all := false; o_coverage := None; o_cpus := None;
               o_display := None; o_exact := false; o_exit_code := false; o_features := []; o_list := false;
               o_manifest_path := None; o_max_total_time := None; o_no_default_features := false; o_no_run := false; o_no_ui := false;
               o_package := None; o_persistent := false; o_pretty := false; o_release := false; o_replay := Some Crashes; o_reset := false;
               o_reset_all := false; o_resume := false; o_run_until_crash := false; o_slice := 1800; o_test := None; o_timeout := None;
               o_verbose := false; o_ztarget := None; o_zzargs := [] |} in
  let shown b := let r := entry ex_double (entry_harness_env o [] (lit "exe") []) true b in
                 line (lit "id:000000") (stderr_of ex_texts r) (lit "Exited(101)") in
  snd (fuzzed ex_double false default_opts [] [] true ["007"%char]) = HAbort /\ breaks_it ex_double ["007"%char] /\
  shown ["007"%char] = lit "id:000000: thread panicked" ++ [LF] /\
  snd (fuzzed ex_double false default_opts [] [] true ["005"%char]) = HPass /\
  shown ["005"%char] = lit "id:000000: Ret(10)" ++ [LF].
Proof. cbv zeta. split; [vm_compute; reflexivity|]. split; [right; exists 7; split; vm_compute; reflexivity|]. vm_compute. repeat split. Qed.
