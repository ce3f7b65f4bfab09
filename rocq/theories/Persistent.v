(** The generated harness in more detail than Harness.v: the panic hook as state,
    panics that are raised and caught inside user code, [execute_with], targets
    that keep state, and persistent builds (feature [__persistent]). *)
From Coq Require Import List Ascii String Bool Arith Lia.
From Verif Require Import Base Utf8 Env Opts Harness.
Import ListNotations.

(** What a piece of user code does with panics: does it raise one that does not
    leave it (caught inside, or in another thread that is joined), and does it
    return ([None]: a panic leaves it). *)
Record beh (X : Type) := { b_caught : bool; b_result : option X }.
Arguments b_caught {X}. Arguments b_result {X}. Arguments Build_beh {X}.

(** The value of [execute_with] applied to a closure (macro/src/lib.rs:602-609):
    it runs the closure some number of times, sees whether it returned, and ends. *)
Inductive wrap (R : Type) :=
  | WEnd (b : beh R)
  | WCall (k : option R -> wrap R).
Arguments WEnd {R}. Arguments WCall {R}.

(** The panic hook: cargo test's, or one that aborts the process. *)
Inductive phook := HookTest | HookAbort.

(** A piece of the harness ends with a value, by unwinding, or with the process. *)
Inductive pres (X : Type) := PVal (x : X) | PUnwind | PAbort.
Arguments PVal {X}. Arguments PUnwind {X}. Arguments PAbort {X}.

(** User code the harness depends on; the target may read and change a state [S]. *)
Record puser (A R S : Type) := {
  p_decode : bytes -> beh (option A);
  p_show_args : A -> beh unit;
  p_target : A -> S -> S * beh R;
  p_show_ret : R -> beh unit;
  p_execute_with : option (wrap R);
}.
Arguments p_decode {A R S}. Arguments p_show_args {A R S}. Arguments p_target {A R S}.
Arguments p_show_ret {A R S}. Arguments p_execute_with {A R S}.

Section Persistent.
  Context {A R S : Type}.
  Variable u : puser A R S.

  Definition pstate := (phook * S)%type.
  (** Events, state afterwards, and how it ended. *)
  Definition pm (X : Type) := pstate -> list (hevent A R) * pstate * pres X.
  Definition pret {X} (x : X) : pm X := fun s => ([], s, PVal x).
  Definition pemit (e : hevent A R) : pm unit := fun s => ([e], s, PVal tt).
  Definition pbind {X Y} (x : pm X) (f : X -> pm Y) : pm Y := fun s =>
    match x s with
    | (l, s', PVal v) => let '(l', s'', r) := f v s' in (l ++ l', s'', r)
    | (l, s', PUnwind) => (l, s', PUnwind)
    | (l, s', PAbort) => (l, s', PAbort)
    end.
  Definition pthen {Y} (x : pm unit) (y : pm Y) : pm Y := pbind x (fun _ => y).

  (** std::panic::set_hook and take_hook; the hook runs where the panic is raised. *)
  Definition set_hook (h : phook) : pm unit := fun s => ([], (h, snd s), PVal tt).
  Definition ends {X} (h : phook) (b : beh X) : pres X :=
    match h with
    | HookAbort => if b_caught b then PAbort else match b_result b with Some x => PVal x | None => PAbort end
    | HookTest => match b_result b with Some x => PVal x | None => PUnwind end
    end.
  Definition user_code {X} (b : beh X) : pm X := fun s => ([], s, ends (fst s) b).

  (** Calling the target: its panics are seen by the hook first, by the caller second. *)
  Definition target_code (a : A) : pm (option R) := fun s =>
    let (t, b) := p_target u a (snd s) in
    ([HCall a], (fst s, t),
     match ends (fst s) b with PVal r => PVal (Some r) | PUnwind => PVal None | PAbort => PAbort end).
  Definition rethrow (r : option R) : pm R := fun s => ([], s, match r with Some x => PVal x | None => PUnwind end).

  (** macro/src/lib.rs:602-609 [call_in_environment]. *)
  Fixpoint run_wrap (w : wrap R) (a : A) : pm R :=
    match w with
    | WEnd b => user_code b
    | WCall k => pbind (target_code a) (fun r => run_wrap (k r) a)
    end.
  Definition call_in_environment (a : A) : pm R :=
    match p_execute_with u with
    | Some w => run_wrap w a
    | None => pbind (target_code a) rethrow
    end.

  (** macro/src/lib.rs:549-556 [input_args], the part that is not persistent, and the
      first line of the closure of 612-616: take the input and decode it. *)
  Definition p_input (data : bytes) : pm (option A) :=
    pthen (pemit HRead) (user_code (p_decode u data)).

  (** macro/src/lib.rs:617-623 and 614-616: [args.map(|mut args| …)]. *)
  Definition p_call (args : option A) : pm (option R) :=
    match args with
    | Some a => pbind (call_in_environment a) (fun r => pret (Some r))
    | None => pret None
    end.

  (** macro/src/lib.rs:557-571 [output_args], not persistent. *)
  Definition p_output_args (e : env) (args : option A) : pm unit :=
    pthen match args with
          | Some a => pthen (pemit (HShowArgs (pretty_print_enabled e) a)) (user_code (p_show_args u a))
          | None => pret tt
          end (pemit HNewline).

  (** macro/src/lib.rs:626-657 [output_ret], not persistent. *)
  Definition p_output_ret (e : env) (ret : option R) : pm unit :=
    pthen match ret with
          | Some r => pthen (pemit (HShowRet (pretty_print_enabled e) r)) (user_code (p_show_ret u r))
          | None => pret tt
          end (pemit HNewline).

  (** macro/src/lib.rs:612-617: [afl::fuzz!], for the inputs the fuzzer hands over one
      after the other.  The afl crate is external; assumed: it sets a hook that
      aborts and runs the closure once for each input. *)
  Fixpoint fuzz_each (inputs : list bytes) : pm unit :=
    match inputs with
    | [] => pret tt
    | data :: l => pthen (pbind (p_input data) (fun args => pbind (p_call args) (fun _ => pret tt))) (fuzz_each l)
    end.
  Definition afl_fuzz (inputs : list bytes) : pm unit := pthen (set_hook HookAbort) (fuzz_each inputs).

  (** macro/src/lib.rs:735-767 [entry] after the warning, in a build that is
      persistent or not.  [inputs]: what the fuzzer hands over (persistent), or
      the contents of standard input (one element). *)
  Definition p_entry_body (persistent : bool) (e : env) (nontrivial : bool) (inputs : list bytes) : pm unit :=
    if test_fuzz_enabled e then
      if coverage_enabled e || display_enabled e || replay_enabled e then
        pthen (if coverage_enabled e then (if nontrivial then pemit HWarnNontrivial else pret tt) else pret tt)
          (if persistent then
             if coverage_enabled e || replay_enabled e then afl_fuzz inputs else pret tt
           else
             pbind (p_input (List.concat inputs)) (fun args =>
               pthen (if display_enabled e then p_output_args e args else pret tt)
                 (if coverage_enabled e || replay_enabled e then
                    pbind (p_call args) (fun ret => if replay_enabled e then p_output_ret e ret else pret tt)
                  else pret tt)))
      else
        pthen (set_hook HookAbort)
          (pthen (if persistent then afl_fuzz inputs
                  else pbind (p_input (List.concat inputs)) (fun args => pbind (p_call args) (fun _ => pret tt)))
             (set_hook HookTest))
    else pret tt.

  (** macro/src/lib.rs:735-767 and 801-804: the [entry] test as the only test of its
      process, which starts with cargo test's hook. *)
  Definition p_entry (persistent : bool) (e : env) (nontrivial : bool) (inputs : list bytes) (s : S)
    : list (hevent A R) * pstate * hresult :=
    let '(l, s', r) := p_entry_body persistent e nontrivial inputs (HookTest, s) in
    (warn_first e ++ l, s', match r with PVal _ => HPass | PUnwind => HFail | PAbort => HAbort end).
End Persistent.

(** The events and the end of a run, without the state. *)
Definition shown {A R S : Type} (x : list (hevent A R) * (phook * S) * hresult) : list (hevent A R) * hresult :=
  (fst (fst x), snd x).
