(** Several tests in one process: what harnesses share with each other and with other tests, namely
    the panic hook and the [Once] of the warning. *)
From Coq Require Import Ascii String List Bool Arith Lia.
From Verif Require Import Base Env Harness.
Import ListNotations.

(** The panic hook of the process: std's (or the test runner's), the harness's, which aborts
    (macro/src/lib.rs:760), or one that other code has set. *)
Inductive hook := HkDefault | HkAbort | HkOwn.

(** [std::sync::Once] (std): not called, a test is inside the closure, done, poisoned by a panic
    inside of the closure. *)
Inductive once_ := ONew | ORunning (t : nat) | ODone | OPoisoned.

(** What a test does that concerns the others.  [Warn]: [warn_if_test_fuzz_not_enabled];
    [SetAbort], [Take]: macro/src/lib.rs:760 and 763; [SetOwn]: [std::panic::set_hook] in other
    code; [Caught]: a panic that is caught within the test; [Panics]: one that is not. *)
Inductive op := Warn | SetAbort | SetOwn | Take | Caught | Panics.

(** A test: what it still has to do, and whether it is inside the closure of the [Once]; or how it
    ended.  [#[should_panic]] reverses the verdict of a test, which is not modelled. *)
Inductive test := Doing (l : list op) | Inside (l : list op) | Passed | Failed.

Record proc := { p_hook : hook; p_once : once_; p_said : nat; p_dead : bool; p_tests : list test }.

(** Replaces the state of a test. *)
Fixpoint put (t : nat) (s : test) (l : list test) : list test :=
  match l, t with
  | [], _ => []
  | _ :: l', 0 => s :: l'
  | s' :: l', S t' => s' :: put t' s l'
  end.

Definition advance (t : nat) (s : test) (p : proc) : proc :=
  {| p_hook := p_hook p; p_once := p_once p; p_said := p_said p; p_dead := p_dead p; p_tests := put t s (p_tests p) |}.
Definition set_hook (h : hook) (p : proc) : proc :=
  {| p_hook := h; p_once := p_once p; p_said := p_said p; p_dead := p_dead p; p_tests := p_tests p |}.
Definition set_once (o : once_) (n : nat) (p : proc) : proc :=
  {| p_hook := p_hook p; p_once := o; p_said := n; p_dead := p_dead p; p_tests := p_tests p |}.
Definition die (p : proc) : proc :=
  {| p_hook := p_hook p; p_once := p_once p; p_said := p_said p; p_dead := true; p_tests := p_tests p |}.

(** A panic first runs the hook; one that is caught continues with [s]. *)
Definition panic (t : nat) (s : test) (p : proc) : proc :=
  match p_hook p with HkAbort => die p | _ => advance t s p end.

Section Process.
  (** Whether [TEST_FUZZ] is on; constant. *)
  Variable on : bool.

  (** One step of test [t]; [wrote]: a write to stderr would succeed.
      runtime/src/lib.rs:120-133 for [Warn]: enter the closure, wait while another is inside, go on
      if it is done, panic if it is poisoned; inside, write the warning unless [TEST_FUZZ] is on and
      panic if that fails. *)
  Definition step (p : proc) (x : nat * bool) : proc :=
    let (t, wrote) := x in
    if p_dead p then p else
    match nth_error (p_tests p) t with
    | Some (Doing []) => advance t Passed p
    | Some (Doing (Warn :: l)) =>
        match p_once p with
        | ONew => advance t (Inside l) (set_once (ORunning t) (p_said p) p)
        | ORunning _ => p
        | ODone => advance t (Doing l) p
        | OPoisoned => panic t Failed p
        end
    | Some (Inside l) =>
        if on then advance t (Doing l) (set_once ODone (p_said p) p)
        else if wrote then advance t (Doing l) (set_once ODone (S (p_said p)) p)
        else panic t Failed (set_once OPoisoned (p_said p) p)
    | Some (Doing (SetAbort :: l)) => advance t (Doing l) (set_hook HkAbort p)
    | Some (Doing (SetOwn :: l)) => advance t (Doing l) (set_hook HkOwn p)
    | Some (Doing (Take :: l)) => advance t (Doing l) (set_hook HkDefault p)
    | Some (Doing (Caught :: l)) => panic t (Doing l) p
    | Some (Doing (Panics :: l)) => panic t Failed p
    | Some Passed | Some Failed | None => p
    end.

  (** The process at the start, and after a schedule: which test goes on, and whether it can write
      to stderr. *)
  Definition start (progs : list (list op)) : proc :=
    {| p_hook := HkDefault; p_once := ONew; p_said := 0; p_dead := false; p_tests := map Doing progs |}.
  Definition run (progs : list (list op)) (sched : list (nat * bool)) : proc := fold_left step sched (start progs).
End Process.

(** macro/src/lib.rs:735-767: the harness of a target; what happens between installing the hook
    and removing it is left to [entry_body].  A panic there ends the test. *)
Definition harness {A R : Type} (u : user A R) (e : env) (nontrivial : bool) (stdin : bytes) : list op :=
  let (r, hooked) := entry_body u e nontrivial stdin in
  Warn :: (if hooked then [SetAbort] else []) ++ (match snd r with Some _ => [] | None => [Panics] end)
       ++ (if hooked then [Take] else []).

(** * Facts *)

Definition rest (s : test) : list op := match s with Doing l | Inside l => l | _ => [] end.
Definition ended (s : test) : Prop := s = Passed \/ s = Failed.

Lemma put_same l t s : t < length l -> nth_error (put t s l) t = Some s.
Proof. revert t. induction l as [|a l IH]; intros [|t] H; cbn in *; try lia; [reflexivity|]. apply IH. lia. Qed.
Lemma put_other l t t' s : t <> t' -> nth_error (put t s l) t' = nth_error l t'.
Proof. revert t t'. induction l as [|a l IH]; intros [|t] [|t'] H; cbn; try reflexivity; try congruence. apply IH. congruence. Qed.
Lemma put_length l t s : length (put t s l) = length l.
Proof. revert t. induction l as [|a l IH]; intros [|t]; cbn; auto. Qed.

Lemma put_at l t t' s s0 : nth_error l t = Some s0 ->
  nth_error (put t s l) t' = if Nat.eqb t t' then Some s else nth_error l t'.
Proof.
  intros H. destruct (Nat.eqb_spec t t') as [<-|N]; [|now apply put_other].
  apply put_same. apply nth_error_Some. congruence.
Qed.

(** What one step can do: nothing, kill the process, or change the test [t] and the shared state. *)
Lemma step_cases on p x :
  let p' := step on p x in
  p' = p \/
  (p_dead p' = true /\ p_dead p = false /\ p_hook p = HkAbort /\ p_hook p' = HkAbort /\ p_tests p' = p_tests p) \/
  (p_dead p = false /\ p_dead p' = false /\ exists t s s', x = (t, snd x) /\ nth_error (p_tests p) t = Some s /\ p_tests p' = put t s' (p_tests p)).
Proof.
  destruct x as [t w]. unfold step. destruct (p_dead p) eqn:D; [now left|]. cbn [snd].
  destruct (nth_error (p_tests p) t) as [[l|l| |]|] eqn:N; try (now left).
  - destruct l as [|[] l]; unfold panic;
      try (destruct (p_once p)); try (destruct (p_hook p) eqn:H); try (now left);
      solve [right; right; split; [reflexivity|]; split; [exact D|]; eexists _, _, _; split; [reflexivity|]; split; [exact N|]; reflexivity
            |right; left; auto].
  - destruct on; [|destruct w]; unfold panic; cbn [p_hook set_once]; try (destruct (p_hook p) eqn:H);
      solve [right; right; split; [reflexivity|]; split; [exact D|]; eexists _, _, _; split; [reflexivity|]; split; [exact N|]; reflexivity
            |right; left; auto].
Qed.
