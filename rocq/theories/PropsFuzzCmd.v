(** C45, C73: starting the fuzzer. *)
From Coq Require Import String List Ascii Bool Arith NArith Lia.
From Verif Require Import Base Utf8 Lossy Decimal Dirs Opts Targets FuzzCmd.
Import ListNotations.

(** C45: the arguments of the fuzzer, exactly, for every timeout whose milliseconds fit. *)
Theorem C45_arguments_exact :
  forall (checks : bool) (o : opts) (c : fconfig) (td : path) (id : option str) (x : exe) (target : str),
    (forall t, o_timeout o = Some t -> t * 1000 < 2 ^ 64)%N ->
    exists args input out limit hang,
      fuzz_args checks o c td id x target = Ret args /\
      (** input: nothing new when resuming or on a later run, else the target's corpus *)
      ((o_resume o = true \/ fc_first c = false) /\ input = lit "-" \/
       o_resume o = false /\ fc_first c = true /\
       exists d, dir_from_target td id Corpus (x_name x) target = Ret d /\ input = lossy (path_text d)) /\
      (** output: the target's output directory *)
      (exists d, dir_from_target td id Output (x_name x) target = Ret d /\ out = lossy (path_text d)) /\
      (** time limit: the slice if cpus are insufficient, else the total time if any *)
      ((fc_sufficient c = false /\ exists s, numeral (o_slice o) s /\ limit = [lit "-V"; s]) \/
       (fc_sufficient c = true /\ exists m s, o_max_total_time o = Some m /\ numeral m s /\ limit = [lit "-V"; s]) \/
       (fc_sufficient c = true /\ o_max_total_time o = None /\ limit = [])) /\
      (** hang limit: in milliseconds *)
      ((o_timeout o = None /\ hang = []) \/
       (exists t s, o_timeout o = Some t /\ numeral (t * 1000) s /\ hang = [lit "-t"; s])) /\
      args = [lit "-c-"; lit "-i"; input; lit "-o"; out; lit "-M"; lit "default"] ++ limit ++ hang ++ o_zzargs o
             ++ [lit "--"; lossy (x_path x); lit "--exact"; target ++ lit "_fuzz__::entry"].
Proof.
  intros checks o c td id x target T. unfold fuzz_args. rewrite !dir_from_target_eq.
  set (cd := kind_prefix td Corpus ++ _). set (od := kind_prefix td Output ++ _). cbn [bind].
  exists ([lit "-c-"; lit "-i"; if o_resume o || negb (fc_first c) then lit "-" else lossy (path_text cd);
           lit "-o"; lossy (path_text od); lit "-M"; lit "default"]
       ++ (if negb (fc_sufficient c) then [lit "-V"; dec (o_slice o)]
           else match o_max_total_time o with Some m => [lit "-V"; dec m] | None => [] end)
       ++ (match o_timeout o with Some t => [lit "-t"; dec (t * 1000)] | None => [] end)
       ++ o_zzargs o
       ++ [lit "--"; lossy (x_path x); lit "--exact"; target ++ entry_suffix]).
  eexists _, _, _, _. split; [|split; [|split; [|split; [|split; [|reflexivity]]]]].
  - assert (H : (match o_timeout o with
        | Some t => bind (mul64 checks t millis_per_sec) (fun ms => Ret [lit "-t"; dec ms])
        | None => Ret []
        end : outcome (list str)) = Ret (match o_timeout o with Some t => [lit "-t"; dec (t * 1000)] | None => [] end)).
    { destruct (o_timeout o) as [t|]; [|reflexivity]. specialize (T t eq_refl). unfold mul64.
      change millis_per_sec with 1000%N. apply N.ltb_lt in T. rewrite T. reflexivity. }
    rewrite H. destruct (o_resume o || negb (fc_first c)); reflexivity.
  - destruct (o_resume o), (fc_first c); cbn [orb negb]; auto. right. split; [reflexivity|]. split; [reflexivity|].
    exists cd. auto.
  - exists od. auto.
  - destruct (fc_sufficient c); cbn [negb].
    + right. destruct (o_max_total_time o) as [m|]; [left|right; auto]. split; [reflexivity|].
      exists m, (dec m). split; [reflexivity|]. split; [apply dec_numeral|reflexivity].
    + left. split; [reflexivity|]. exists (dec (o_slice o)). split; [apply dec_numeral|reflexivity].
  - destruct (o_timeout o) as [t|]; [right|left; auto]. exists t, (dec (t * 1000)).
    split; [reflexivity|]. split; [apply dec_numeral|reflexivity].
Qed.
Print Assumptions C45_arguments_exact.

(** C45: the output directories of different targets are given different names (if
    the paths are text at all). *)
Theorem C45_outputs_differ :
  forall (td : path) (id : option str) (x1 x2 : exe) (t1 t2 : str) d1 d2,
    dir_from_target td id Output (x_name x1) t1 = Ret d1 ->
    dir_from_target td id Output (x_name x2) t2 = Ret d2 ->
    valid_utf8 (path_text d1) = true -> valid_utf8 (path_text d2) = true ->
    path_from_target (x_name x1) t1 <> path_from_target (x_name x2) t2 ->
    lossy (path_text d1) <> lossy (path_text d2).
Proof.
  intros td id x1 x2 t1 t2 d1 d2. rewrite !dir_from_target_eq. intros [= <-] [= <-] V1 V2 N E. apply N.
  rewrite !lossy_valid in E by assumption. unfold path_text in E.
  rewrite !map_app, !concat_app in E. apply app_inv_head in E. cbn [map concat] in E.
  apply app_inv_head in E. rewrite !app_nil_r in E. apply app_inv_head in E. exact E.
Qed.
Print Assumptions C45_outputs_differ.

Lemma first_split (a : str) (p1 q1 p2 q2 : list str) :
  p1 ++ a :: q1 = p2 ++ a :: q2 -> ~ In a p1 -> ~ In a p2 -> p1 = p2 /\ q1 = q2.
Proof.
  revert p2; induction p1 as [|b p1 IH]; intros [|b2 p2] E N1 N2; cbn in *.
  - injection E as <-. auto.
  - injection E as -> E. destruct N2. now left.
  - injection E as -> E. destruct N1. now left.
  - injection E as -> E. destruct (IH p2) as [-> ->]; auto.
Qed.

Lemma numeral_not_dashes n s : numeral n s -> s <> lit "--".
Proof. intros (_ & F & _) ->. inversion F as [|? ? H _]. subst. revert H. unfold is_digit. cbn. lia. Qed.

(** C45: if the user's arguments contain no [--], what follows the first [--] is
    exactly the executable and the exact entry test. *)
Theorem C45_harness_command :
  forall (checks : bool) (o : opts) (c : fconfig) (td : path) (id : option str) (x : exe) (target : str) args pre post,
    (forall t, o_timeout o = Some t -> t * 1000 < 2 ^ 64)%N ->
    fuzz_args checks o c td id x target = Ret args -> ~ In (lit "--") (o_zzargs o) ->
    args = pre ++ lit "--" :: post -> ~ In (lit "--") pre ->
    post = [lossy (x_path x); lit "--exact"; target ++ lit "_fuzz__::entry"].
Proof.
  intros checks o c td id x target args pre post T A Z E N.
  destruct (C45_arguments_exact checks o c td id x target T) as (args' & input & out & limit & hang & A' & I & O & L & H & E').
  rewrite A in A'. injection A' as <-. rewrite E in E'. clear A E.
  rewrite !app_assoc in E'. rewrite <- (app_assoc _ [lit "--"; _; _; _]) in E' || idtac.
  change [lit "--"; lossy (x_path x); lit "--exact"; target ++ lit "_fuzz__::entry"]
    with (lit "--" :: [lossy (x_path x); lit "--exact"; target ++ lit "_fuzz__::entry"]) in E'.
  eapply first_split; [exact E'|exact N|]. clear E' N.
  assert (P : forall d, lossy (path_text d) <> lit "--").
  { intros d Q. assert (Asc : is_ascii (lossy (path_text d))) by (rewrite Q; repeat constructor).
    apply lossy_ascii in Asc. rewrite Asc in Q. destruct d as [|a d]; discriminate Q. }
  rewrite !in_app_iff. intros [[[K|K]|K]|K].
  - assert (input <> lit "--") by (destruct I as [(_ & ->)|(_ & _ & d & _ & ->)]; [discriminate|apply P]).
    assert (out <> lit "--") by (destruct O as (d & _ & ->); apply P).
    cbn [In] in K. destruct K as [K|[K|[K|[K|[K|[K|[K|[]]]]]]]]; try discriminate K; contradiction.
  - destruct L as [(_ & s & Nu & ->)|[(_ & m & s & _ & Nu & ->)|(_ & _ & ->)]]; cbn [In] in K.
    + destruct K as [K|[K|[]]]; [discriminate|]. now apply numeral_not_dashes in Nu.
    + destruct K as [K|[K|[]]]; [discriminate|]. now apply numeral_not_dashes in Nu.
    + exact K.
  - destruct H as [(_ & ->)|(t & s & _ & Nu & ->)]; cbn [In] in K; [exact K|].
    destruct K as [K|[K|[]]]; [discriminate|]. now apply numeral_not_dashes in Nu.
  - exact (Z K).
Qed.
Print Assumptions C45_harness_command.

Definition set_fuzz (timeout total : option N) (zz : list str) (cpus : option nat) (ec : bool) : opts := {|
  o_backtrace := false; o_consolidate := false; o_consolidate_all := false; o_coverage := None;
  o_cpus := cpus; o_display := None; o_exact := false; o_exit_code := ec; o_list := false;
  o_max_total_time := total; o_no_run := false; o_no_ui := false; o_persistent := false;
  o_pretty := false; o_replay := None; o_reset := false; o_reset_all := false; o_resume := false;
  o_run_until_crash := false; o_slice := 1200%N; o_timeout := timeout;
  o_features := []; o_manifest_path := None; o_no_default_features := false; o_package := None;
  o_release := false; o_test := None; o_verbose := false; o_ztarget := None; o_zzargs := zz |}.

Definition ex_exe : exe := {| x_path := lit "/t/afl/debug/deps/a-0"; x_name := lit "my-crate" |}.
Definition ex_conf : fconfig := {| fc_ui := true; fc_sufficient := true; fc_first := true |}.

(** C45: a [--] among the user's arguments replaces the harness. *)
Theorem C45_harness_command_refuted :
  exists (o : opts) (c : fconfig) (td : path) (x : exe) (target : str) args pre post,
    fuzz_args true o c td None x target = Ret args /\
    args = pre ++ lit "--" :: post /\ ~ In (lit "--") pre /\
    post <> [lossy (x_path x); lit "--exact"; target ++ lit "_fuzz__::entry"].
Proof.
  exists (set_fuzz None None [lit "--"; lit "evil"] None false), ex_conf, [lit "t"], ex_exe, (lit "f").
  eexists _, [lit "-c-"; lit "-i"; _; lit "-o"; _; lit "-M"; lit "default"], _.
  split; [vm_compute; reflexivity|]. split; [reflexivity|]. split.
  - vm_compute. intros H. repeat (destruct H as [H|H]; [discriminate|]). exact H.
  - discriminate.
Qed.
Print Assumptions C45_harness_command_refuted.

(** C45: a larger timeout overflows: a panic with overflow checks, ... *)
Theorem C45_timeout_overflow_panics :
  forall (o : opts) (c : fconfig) (td : path) (id : option str) (x : exe) (target : str) t,
    o_timeout o = Some t -> (2 ^ 64 <= t * 1000)%N ->
    fuzz_args true o c td id x target = Panic.
Proof.
  intros o c td id x target t T L. unfold fuzz_args. rewrite !dir_from_target_eq. cbn [bind]. rewrite T.
  unfold mul64. change millis_per_sec with 1000%N. apply N.ltb_ge in L. rewrite L. cbn [bind].
  destruct (o_resume o || negb (fc_first c)); reflexivity.
Qed.
Print Assumptions C45_timeout_overflow_panics.

(** ... and without them a much smaller limit than requested, here 384 milliseconds
    for over five hundred million years. *)
Theorem C45_timeout_milliseconds_refuted :
  exists (o : opts) (t : N) args pre,
    o_timeout o = Some t /\ (t < 2 ^ 64)%N /\
    fuzz_args false o ex_conf [lit "t"] None ex_exe (lit "f") = Ret args /\
    args = pre ++ [lit "-t"; lit "384"; lit "--"; lit "/t/afl/debug/deps/a-0"; lit "--exact"; lit "f_fuzz__::entry"].
Proof.
  exists (set_fuzz (Some 18446744073709552%N) None [] None false), 18446744073709552%N.
  eexists _, [_; _; _; _; _; _; _]. split; [reflexivity|]. split; [reflexivity|].
  split; [vm_compute; reflexivity|]. reflexivity.
Qed.
Print Assumptions C45_timeout_milliseconds_refuted.

Example C45_example :
  fuzz_args true (set_fuzz (Some 2%N) (Some 60%N) [lit "-d"] None false) ex_conf [lit "t"] None ex_exe (lit "m::f")
  = Ret [lit "-c-"; lit "-i"; lit "/t/corpus/my_crate::m::f"; lit "-o"; lit "/t/afl/output/my_crate::m::f";
         lit "-M"; lit "default"; lit "-V"; lit "60"; lit "-t"; lit "2000"; lit "-d"; lit "--";
         lit "/t/afl/debug/deps/a-0"; lit "--exact"; lit "m::f_fuzz__::entry"].
Proof. vm_compute. reflexivity. Qed.

(** C73: how fuzzing is carried out.  [cpus] is the number of processors, at least one. *)
Theorem C73_plan_exact :
  forall (cpus : nat) (o : opts) (n : nat),
    1 <= cpus -> 1 <= n -> o_coverage o = None ->
    let available := match o_cpus o with Some k => Nat.min k cpus | None => cpus - 1 end in
    match fuzz_plan cpus o n with
    | Ret Foreground => n = 1 /\ o_exit_code o = false
    | Ret (Parallel k) =>
        (n <> 1 \/ o_exit_code o = true) /\ k = available /\ 1 <= k <= cpus /\
        (o_max_total_time o <> None -> n <= k)
    | Err e =>
        (n <> 1 \/ o_exit_code o = true) /\
        ((available = 0 /\ e = lit "Number of cpus must be greater than zero") \/
         (1 <= available < n /\ o_max_total_time o <> None /\
          exists a b, numeral (N.of_nat available) a /\ numeral (N.of_nat n) b /\
            e = lit "--max-total-time cannot be used when number of cpus (" ++ a ++ lit ") is less than number of fuzz targets (" ++ b ++ lit ")"))
    | Panic => False
    end.
Proof.
  intros cpus o n C N Co. unfold fuzz_plan. rewrite Co. cbn [is_some].
  assert (A : (match o_cpus o with Some n0 => Ret n0 | None => match cpus with 0 => Panic | S n0 => Ret n0 end end : outcome nat)
              = Ret (match o_cpus o with Some k => k | None => cpus - 1 end)).
  { destruct (o_cpus o); [reflexivity|]. destruct cpus; [lia|]. f_equal. lia. }
  rewrite A. cbn [bind].
  assert (B : Nat.min (match o_cpus o with Some k => k | None => cpus - 1 end) cpus
              = match o_cpus o with Some k => Nat.min k cpus | None => cpus - 1 end).
  { destruct (o_cpus o); lia. }
  rewrite B. clear A B. set (av := match o_cpus o with Some k => Nat.min k cpus | None => cpus - 1 end).
  assert (Av : av <= cpus) by (unfold av; destruct (o_cpus o); lia). clearbody av.
  destruct (negb (o_exit_code o) && (n =? 1)) eqn:F.
  - apply andb_true_iff in F as [F1 F2]. apply Nat.eqb_eq in F2. split; [exact F2|]. now destruct (o_exit_code o).
  - assert (G : n <> 1 \/ o_exit_code o = true).
    { destruct (o_exit_code o); [now right|left]. cbn in F. now apply Nat.eqb_neq. }
    clear F. destruct (1 <=? av) eqn:E1; cbn [negb].
    + apply Nat.leb_le in E1. destruct (n <=? av) eqn:E2; cbn [negb andb].
      * apply Nat.leb_le in E2. repeat split; auto.
      * apply Nat.leb_gt in E2. destruct (o_max_total_time o) eqn:M; cbn [is_some].
        -- split; [exact G|]. right. split; [lia|]. split; [discriminate|]. eexists _, _. split; [apply dec_numeral|]. split; [apply dec_numeral|reflexivity].
        -- repeat split; auto. now intros [].
    + apply Nat.leb_gt in E1. split; [exact G|]. left. split; [lia|reflexivity].
Qed.
Print Assumptions C73_plan_exact.

(** C73: with coverage requested, fuzzing is an internal error. *)
Theorem C73_no_coverage : forall cpus o n, o_coverage o <> None -> fuzz_plan cpus o n = Panic.
Proof. intros cpus o n H. unfold fuzz_plan. destruct (o_coverage o); [reflexivity|contradiction]. Qed.
Print Assumptions C73_no_coverage.

Example C73_example :
  fuzz_plan 4 (set_fuzz None None [] None false) 1 = Ret Foreground /\
  fuzz_plan 4 (set_fuzz None None [] None true) 1 = Ret (Parallel 3) /\
  fuzz_plan 4 (set_fuzz None None [] (Some 9) false) 5 = Ret (Parallel 4) /\
  fuzz_plan 4 (set_fuzz None (Some 60%N) [] None false) 5
  = Err (lit "--max-total-time cannot be used when number of cpus (3) is less than number of fuzz targets (5)") /\
  fuzz_plan 1 (set_fuzz None None [] None false) 2 = Err (lit "Number of cpus must be greater than zero").
Proof. repeat split; reflexivity. Qed.
