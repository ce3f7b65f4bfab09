(** The code generated for a fuzz target: the [entry] test (the harness) and the
    instrumentation of the target function itself. *)
From Coq Require Import List Ascii String Bool Arith Lia.
From Verif Require Import Base Utf8 Env Opts.
Import ListNotations.

(** ** The harness *)

(** Result of reading and decoding the arguments from standard input
    (macro/src/lib.rs:549-556, 677-688); decoding may panic in user code. *)
Inductive decoded (A : Type) := Decoded (a : A) | NotDecoded | DecodePanic.
Arguments Decoded {A}. Arguments NotDecoded {A}. Arguments DecodePanic {A}.

(** What the harness does that can be observed. *)
Inductive hevent (A R : Type) :=
  | HWarn                      (* the not-enabled warning *)
  | HWarnNontrivial            (* "Coverage will not be shown" *)
  | HRead                      (* reads standard input *)
  | HShowArgs (pretty : bool) (a : A)
  | HNewline
  | HCall (a : A)              (* calls the target *)
  | HShowRet (pretty : bool) (r : R).
Arguments HWarn {A R}. Arguments HWarnNontrivial {A R}. Arguments HRead {A R}.
Arguments HShowArgs {A R}. Arguments HNewline {A R}. Arguments HCall {A R}. Arguments HShowRet {A R}.

(** How the entry test ends: it passes, fails by a panic caught by the test
    runner, or the whole process aborts. *)
Inductive hresult := HPass | HFail | HAbort.

(** User code the harness depends on, as oracles: decoding of standard input,
    printing of arguments (does it return?), the target ([None]: panics),
    printing of return values. *)
Record user (A R : Type) := {
  u_decode : bytes -> decoded A;
  u_show_args : A -> bool;
  u_target : A -> option R;
  u_show_ret : R -> bool;
}.
Arguments u_decode {A R}. Arguments u_show_args {A R}. Arguments u_target {A R}. Arguments u_show_ret {A R}.

Section Harness.
  Context {A R : Type}.
  Variable u : user A R.

  (** A harness computation: events so far, and a value unless a panic stopped it. *)
  Definition hm (X : Type) := (list (hevent A R) * option X)%type.
  Definition hret {X} (x : X) : hm X := ([], Some x).
  Definition hpanic {X} : hm X := ([], None).
  Definition hemit (e : hevent A R) : hm unit := ([e], Some tt).
  Definition hbind {X Y} (x : hm X) (f : X -> hm Y) : hm Y :=
    match snd x with
    | Some v => let y := f v in (fst x ++ fst y, snd y)
    | None => (fst x, None)
    end.
  Definition hthen {Y} (x : hm unit) (y : hm Y) : hm Y := hbind x (fun _ => y).

  (** macro/src/lib.rs:553-555 [input_args] (not persistent). *)
  Definition input_args (stdin : bytes) : hm (option A) :=
    hthen (hemit HRead)
      match u_decode u stdin with
      | Decoded a => hret (Some a)
      | NotDecoded => hret None
      | DecodePanic => hpanic
      end.

  (** macro/src/lib.rs:561-570 [output_args]. *)
  Definition output_args (e : env) (args : option A) : hm unit :=
    hthen match args with
          | Some a => hthen (hemit (HShowArgs (pretty_print_enabled e) a))
                        (if u_show_args u a then hret tt else hpanic)
          | None => hret tt
          end
          (hemit HNewline).

  (** macro/src/lib.rs:602-625 [call_in_environment_with_deserialized_arguments].
      Simplification: no [execute_with]. *)
  Definition call (args : option A) : hm (option R) :=
    match args with
    | Some a => hthen (hemit (HCall a))
                  match u_target u a with Some r => hret (Some r) | None => hpanic end
    | None => hret None
    end.

  (** macro/src/lib.rs:634-655 [output_ret]. *)
  Definition output_ret (e : env) (ret : option R) : hm unit :=
    hthen match ret with
          | Some r => hthen (hemit (HShowRet (pretty_print_enabled e) r))
                        (if u_show_ret u r then hret tt else hpanic)
          | None => hret tt
          end
          (hemit HNewline).

  (** macro/src/lib.rs:735-767 [entry] after the warning; the second component
      says whether the aborting panic hook is installed when user code runs.
      [nontrivial]: the function has at least two statements (252).
      Simplifications: not persistent; the environment does not change while the
      harness runs. *)
  Definition entry_body (e : env) (nontrivial : bool) (stdin : bytes) : hm unit * bool :=
    if test_fuzz_enabled e then
      if coverage_enabled e || display_enabled e || replay_enabled e then
        (hthen (if coverage_enabled e then (if nontrivial then hemit HWarnNontrivial else hret tt) else hret tt)
         (hbind (input_args stdin) (fun args =>
          hthen (if display_enabled e then output_args e args else hret tt)
           (if coverage_enabled e || replay_enabled e then
              hbind (call args) (fun ret => if replay_enabled e then output_ret e ret else hret tt)
            else hret tt))), false)
      else
        (hbind (input_args stdin) (fun args => hbind (call args) (fun _ => hret tt)), true)
    else (hret tt, false).

  (** runtime/src/lib.rs:120-133 [warn_if_test_fuzz_not_enabled], for a first call. *)
  Definition warn_first (e : env) : list (hevent A R) :=
    if test_fuzz_enabled e then [] else [HWarn].

  (** macro/src/lib.rs:735-767 and 801-804: the [entry] test run as the only test of its process. *)
  Definition entry (e : env) (nontrivial : bool) (stdin : bytes) : list (hevent A R) * hresult :=
    let (r, hook) := entry_body e nontrivial stdin in
    (warn_first e ++ fst r,
     match snd r with
     | Some _ => HPass
     | None => if hook then HAbort else HFail
     end).

  (** Specification side: the calls of the target in a list of events. *)
  Fixpoint calls (l : list (hevent A R)) : list A :=
    match l with
    | [] => []
    | HCall a :: l' => a :: calls l'
    | _ :: l' => calls l'
    end.

  Lemma calls_app l1 l2 : calls (l1 ++ l2) = calls l1 ++ calls l2.
  Proof. induction l1 as [|[] l1 IH]; simpl; congruence. Qed.

  (** C28 *)
  Lemma entry_disabled e nontrivial stdin :
    test_fuzz_enabled e = false -> entry e nontrivial stdin = ([HWarn], HPass).
  Proof. intros H. unfold entry, entry_body, warn_first. rewrite H. reflexivity. Qed.

  (** C29 *)
  Lemma entry_display e nontrivial stdin :
    display_enabled e = true -> coverage_enabled e = false -> replay_enabled e = false ->
    calls (fst (entry e nontrivial stdin)) = [] /\ snd (entry e nontrivial stdin) <> HAbort.
  Proof.
    intros D C P. unfold entry, entry_body, warn_first.
    destruct (test_fuzz_enabled e); [|split; [reflexivity|discriminate]].
    rewrite D, C, P. cbn [orb].
    unfold hthen, hbind, input_args, output_args, hemit, hret, hpanic.
    destruct (u_decode u stdin) as [a| |]; simpl; [|split; [reflexivity|discriminate]..].
    destruct (u_show_args u a); simpl; split; reflexivity || discriminate.
  Qed.

  Lemma entry_display_shows e nontrivial stdin a :
    test_fuzz_enabled e = true ->
    display_enabled e = true -> coverage_enabled e = false -> replay_enabled e = false ->
    u_decode u stdin = Decoded a ->
    u_show_args u a = true ->
    entry e nontrivial stdin = ([HRead; HShowArgs (pretty_print_enabled e) a; HNewline], HPass).
  Proof.
    intros T D C P E S. unfold entry, entry_body, warn_first. rewrite T, D, C, P. cbn [orb].
    unfold hthen, hbind, input_args, output_args, hemit, hret, hpanic. rewrite E. simpl. rewrite S. reflexivity.
  Qed.

  (** C30 *)
  Lemma entry_calls e nontrivial stdin :
    test_fuzz_enabled e = true ->
    (display_enabled e = false \/ coverage_enabled e = true \/ replay_enabled e = true) ->
    (forall a, u_decode u stdin = Decoded a ->
       (display_enabled e = true -> u_show_args u a = true) ->
       calls (fst (entry e nontrivial stdin)) = [a]) /\
    (forall a, u_decode u stdin = Decoded a ->
       calls (fst (entry e nontrivial stdin)) = [a] \/ calls (fst (entry e nontrivial stdin)) = []) /\
    (u_decode u stdin = NotDecoded ->
       calls (fst (entry e nontrivial stdin)) = [] /\ snd (entry e nontrivial stdin) = HPass) /\
    (u_decode u stdin = DecodePanic -> calls (fst (entry e nontrivial stdin)) = []).
  Proof.
    intros T M. unfold entry, entry_body, warn_first. rewrite T.
    unfold hthen, hbind, input_args, output_args, output_ret, call, hemit, hret, hpanic.
    destruct (coverage_enabled e), (display_enabled e), (replay_enabled e), nontrivial; simpl in *;
      try (destruct M as [M|[M|M]]; discriminate);
      destruct (u_decode u stdin) as [a| |]; simpl;
      (split; [intros a' [= <-] S|split; [intros a' [= <-]|split; [intros [=]|intros [=]]]]);
      try (rewrite (S eq_refl)); simpl;
      try (destruct (u_show_args u a)); simpl; try (destruct (u_target u a) as [r|]); simpl;
      try (destruct (u_show_ret u r)); simpl; auto.
  Qed.

  (** The outcome when the target panics. *)
  Lemma entry_panic e nontrivial stdin a :
    test_fuzz_enabled e = true ->
    u_decode u stdin = Decoded a -> u_target u a = None ->
    (display_enabled e = true -> u_show_args u a = true) ->
    (display_enabled e = false -> coverage_enabled e = false -> replay_enabled e = false ->
       entry e nontrivial stdin = ([HRead; HCall a], HAbort)) /\
    (coverage_enabled e = true \/ replay_enabled e = true -> snd (entry e nontrivial stdin) = HFail).
  Proof.
    intros T E P S. unfold entry, entry_body, warn_first. rewrite T.
    unfold hthen, hbind, input_args, output_args, output_ret, call, hemit, hret, hpanic. rewrite E.
    destruct (coverage_enabled e), (display_enabled e), (replay_enabled e), nontrivial; simpl in *;
      (split; [intros D C Q; try discriminate|intros M; try (destruct M; discriminate)]);
      try rewrite (S eq_refl); simpl; rewrite P; reflexivity.
  Qed.

  Lemma entry_ok e nontrivial stdin a r :
    test_fuzz_enabled e = true ->
    u_decode u stdin = Decoded a -> u_target u a = Some r ->
    display_enabled e = false -> coverage_enabled e = false -> replay_enabled e = false ->
    entry e nontrivial stdin = ([HRead; HCall a], HPass).
  Proof.
    intros T E P D C Q. unfold entry, entry_body, warn_first. rewrite T, D, C, Q. simpl.
    unfold hthen, hbind, input_args, output_args, output_ret, call, hemit, hret, hpanic. rewrite E. simpl.
    rewrite P. reflexivity.
  Qed.

  (** Replaying shows the return value. *)
  Lemma entry_replay e nontrivial stdin a r :
    test_fuzz_enabled e = true ->
    u_decode u stdin = Decoded a -> u_target u a = Some r -> u_show_ret u r = true ->
    display_enabled e = false -> coverage_enabled e = false -> replay_enabled e = true ->
    entry e nontrivial stdin = ([HRead; HCall a; HShowRet (pretty_print_enabled e) r; HNewline], HPass).
  Proof.
    intros T E P S D C Q. unfold entry, entry_body, warn_first. rewrite T, D, C, Q. simpl.
    unfold hthen, hbind, input_args, output_args, output_ret, call, hemit, hret, hpanic. rewrite E. simpl.
    rewrite P. simpl. rewrite S. reflexivity.
  Qed.
End Harness.

(** ** The instrumented function *)

(** The relevant parts of the attribute's options (macro/src/lib.rs, [TestFuzzOpts]). *)
Record fopts := { f_only_generic_args : bool; f_enable_in_production : bool }.

(** A datum to be recorded: which kind, for which call. *)
Inductive record_ (A : Type) := RecImplGenericArgs (names : list str) | RecGenericArgs (names : list str) | RecArgs (a : A).
Arguments RecImplGenericArgs {A}. Arguments RecGenericArgs {A}. Arguments RecArgs {A}.

Section Instrumented.
  (** [S]: everything the function and the recording can observe and change. *)
  Context {S A R : Type}.
  (** Recording one datum; [false]: it panics (runtime/src/lib.rs:171-187). *)
  Variable record1 : record_ A -> S -> S * bool.
  (** The original body; [None]: it panics. *)
  Variable body : A -> S -> S * option R.
  (** Names of the impl's and the function's type parameters at this call. *)
  Variable impl_names names : list str.

  (** macro/src/lib.rs:494-512: what is recorded, in order. *)
  Definition to_record (f : fopts) (a : A) : list (record_ A) :=
    RecImplGenericArgs impl_names :: RecGenericArgs names
      :: (if f_only_generic_args f then [] else [RecArgs a]).

  Fixpoint record_each (l : list (record_ A)) (s : S) : S * bool :=
    match l with
    | [] => (s, true)
    | r :: l' => let (s', ok) := record1 r s in if ok then record_each l' s' else (s', false)
    end.

  (** macro/src/lib.rs:513-538: is this call recorded?  [cfg_test]: test build. *)
  Definition recording (cfg_test : bool) (f : fopts) (e : env) : bool :=
    if cfg_test then negb (test_fuzz_enabled e)
    else f_enable_in_production f && write_enabled e.

  (** macro/src/lib.rs:778-789: the rewritten function. *)
  Definition instrumented (cfg_test : bool) (f : fopts) (e : env) (a : A) (s : S) : S * option R :=
    if recording cfg_test f e then
      let (s1, ok) := record_each (to_record f a) s in
      if ok then body a s1 else (s1, None)
    else body a s.
End Instrumented.

(** ** The warning (C35) *)

(** [std::sync::Once] (std): not called, a thread is inside the closure, done;
    poisoned is unreachable here as the closure's [unwrap] is not modelled to fail. *)
Inductive once := OnceNew | OnceRunning (thread : nat) | OnceDone.

(** One of the steps of a thread in [warn_if_test_fuzz_not_enabled]
    (runtime/src/lib.rs:120-133): enter [call_once] (blocks while another is
    inside), finish the closure, where [on] is what [test_fuzz_enabled] said. *)
Inductive wstep := WEnter (thread : nat) | WLeave (thread : nat) (on : bool).

(** State: the [Once], and the number of warnings printed. *)
Definition wstep_fn (s : once * nat) (w : wstep) : once * nat :=
  match w, fst s with
  | WEnter t, OnceNew => (OnceRunning t, snd s)
  | WLeave t on, OnceRunning t' =>
      if Nat.eqb t t' then (OnceDone, if on then snd s else S (snd s)) else s
  | _, _ => s
  end.

Definition wrun (l : list wstep) : once * nat := fold_left wstep_fn l (OnceNew, 0).

(** The result of the one check that is made, if any. *)
Fixpoint first_check (s : once) (l : list wstep) : option bool :=
  match l with
  | [] => None
  | WEnter t :: l' => match s with OnceNew => first_check (OnceRunning t) l' | _ => first_check s l' end
  | WLeave t on :: l' =>
      match s with
      | OnceRunning t' => if Nat.eqb t t' then Some on else first_check s l'
      | _ => first_check s l'
      end
  end.

Lemma wrun_done l n : fold_left wstep_fn l (OnceDone, n) = (OnceDone, n).
Proof. induction l as [|[t|t on] l IH]; simpl; auto. Qed.

Lemma wrun_count l s :
  s <> OnceDone ->
  snd (fold_left wstep_fn l (s, 0)) = match first_check s l with Some false => 1 | _ => 0 end.
Proof.
  revert s; induction l as [|[t|t on] l IH]; intros s H; simpl; [reflexivity| |].
  - destruct s; simpl; try (apply IH; discriminate). contradiction.
  - destruct s as [|t'|]; simpl; try (apply IH; discriminate); [|contradiction].
    destruct (Nat.eqb t t'); [|apply IH; discriminate].
    rewrite wrun_done. destruct on; reflexivity.
Qed.

Lemma wrun_const l on :
  (forall t on', In (WLeave t on') l -> on' = on) ->
  snd (wrun l) = if on then 0 else match fst (wrun l) with OnceDone => 1 | _ => 0 end.
Proof.
  intros H. unfold wrun.
  assert (G : forall l s, (forall t on', In (WLeave t on') l -> on' = on) -> s <> OnceDone ->
     snd (fold_left wstep_fn l (s, 0)) =
       if on then 0 else match fst (fold_left wstep_fn l (s, 0)) with OnceDone => 1 | _ => 0 end).
  { clear. induction l as [|[t|t o] l IH]; intros s H N; simpl.
    - destruct s, on; auto; contradiction.
    - destruct s; simpl; try contradiction; apply IH; try discriminate; intros t'' o' I; apply (H t'' o'); right; exact I.
    - assert (H' : forall t on', In (WLeave t on') l -> on' = on) by (intros t'' o' I; apply (H t'' o'); right; exact I).
      destruct s as [|t'|]; simpl; try contradiction.
      + apply IH; [exact H'|discriminate].
      + destruct (Nat.eqb t t'); [|apply IH; [exact H'|discriminate]].
        rewrite wrun_done. rewrite (H t o (or_introl eq_refl)). destruct on; reflexivity. }
  apply G; [exact H|discriminate].
Qed.
