(** Properties C80-C82: panics caught by user code, persistent builds, execute_with. *)
From Coq Require Import List Ascii String Bool Arith Lia.
From Verif Require Import Base Utf8 Env Opts Harness Persistent.
Import ListNotations.

(** The modes, as the harness sees them. *)
Definition fuzzing (e : env) : Prop :=
  test_fuzz_enabled e = true /\ coverage_enabled e = false /\ display_enabled e = false /\ replay_enabled e = false.
Definition replaying (e : env) : Prop :=
  test_fuzz_enabled e = true /\ coverage_enabled e = false /\ display_enabled e = false /\ replay_enabled e = true.
Definition displaying (e : env) : Prop :=
  test_fuzz_enabled e = true /\ coverage_enabled e = false /\ display_enabled e = true /\ replay_enabled e = false.

(** The target calls among the events, in order. *)
Fixpoint called {A R : Type} (l : list (hevent A R)) : list A :=
  match l with
  | [] => []
  | HCall a :: l' => a :: called l'
  | _ :: l' => called l'
  end.

Lemma called_app {A R} (l1 l2 : list (hevent A R)) : called (l1 ++ l2) = called l1 ++ called l2.
Proof. induction l1 as [|[] l1 IH]; simpl; congruence. Qed.

(** User code without state, caught panics or execute_with. *)
Definition plain_user {A R : Type} (u : user A R) : puser A R unit := {|
  p_decode := fun d => Build_beh false match u_decode u d with
                                       | Decoded a => Some (Some a) | NotDecoded => Some None | DecodePanic => None end;
  p_show_args := fun a => Build_beh false (if u_show_args u a then Some tt else None);
  p_target := fun a s => (s, Build_beh false (u_target u a));
  p_show_ret := fun r => Build_beh false (if u_show_ret u r then Some tt else None);
  p_execute_with := None |}.

Lemma concat_one (d : bytes) : List.concat [d] = d.
Proof. cbn. apply app_nil_r. Qed.

(** ** C80 *)

(** For user code without caught panics this is the model of Harness.v. *)
Theorem C80_extends_simple_harness :
  forall (A R : Type) (u : user A R) (e : env) (nontrivial : bool) (stdin : bytes),
    shown (p_entry (plain_user u) false e nontrivial [stdin] tt) = entry u e nontrivial stdin.
Proof.
  intros A R u e nt stdin. unfold p_entry, entry, p_entry_body, entry_body, shown, warn_first. rewrite (concat_one stdin).
  unfold p_input, input_args, p_output_args, output_args, p_call, call, call_in_environment, p_output_ret, output_ret,
    pthen, pbind, pemit, pret, hthen, hbind, hemit, hret, hpanic, user_code, target_code, rethrow, set_hook, ends.
  destruct (test_fuzz_enabled e); [|reflexivity].
  destruct (coverage_enabled e), (display_enabled e), (replay_enabled e), nt; simpl;
    destruct (u_decode u stdin) as [a| |]; simpl; try reflexivity;
    try (destruct (u_show_args u a)); simpl; try reflexivity;
    try (destruct (u_target u a) as [r|]); simpl; try reflexivity;
    try (destruct (u_show_ret u r)); reflexivity.
Qed.
Print Assumptions C80_extends_simple_harness.

(** A piece of harness code that passes under the aborting hook does the same under
    cargo test's, and cannot unwind under the aborting one. *)
Definition steady {A R S X : Type} (x : @pm A R S X) : Prop :=
  forall s, match x (HookAbort, s) with
            | (l, (h, t), PVal v) => h = HookAbort /\ x (HookTest, s) = (l, (HookTest, t), PVal v)
            | (l, (h, t), PUnwind) => False
            | (l, (h, t), PAbort) => True
            end.

Lemma steady_bind {A R S X Y} (x : @pm A R S X) (f : X -> @pm A R S Y) :
  steady x -> (forall v, steady (f v)) -> steady (pbind x f).
Proof.
  intros Hx Hf s. unfold pbind. specialize (Hx s).
  destruct (x (HookAbort, s)) as [[l [h t]] [v| |]]; [|contradiction|exact I].
  destruct Hx as [-> Hx]. rewrite Hx. specialize (Hf v t).
  destruct (f v (HookAbort, t)) as [[l' [h' t']] [w| |]]; [|contradiction|exact I].
  destruct Hf as [-> Hf]. rewrite Hf. auto.
Qed.

Lemma steady_ret {A R S X} (x : X) : steady (@pret A R S X x).
Proof. intros s. cbn. auto. Qed.
Lemma steady_emit {A R S} (e : hevent A R) : steady (@pemit A R S e).
Proof. intros s. cbn. auto. Qed.
Lemma steady_user {A R S X} (b : beh X) : steady (@user_code A R S X b).
Proof. intros s. unfold user_code, ends. cbn. destruct (b_caught b), (b_result b); auto. Qed.
Lemma steady_target {A R S} (u : puser A R S) a : steady (target_code u a).
Proof. intros s. unfold target_code, ends. cbn. destruct (p_target u a s) as [t b]. destruct (b_caught b), (b_result b); auto. Qed.

Lemma steady_call {A R S} (u : puser A R S) a : steady (call_in_environment u a).
Proof.
  unfold call_in_environment. destruct (p_execute_with u) as [w|].
  - induction w as [b|k IH]; [apply steady_user|]. cbn [run_wrap]. apply steady_bind; [apply steady_target|exact IH].
  - intros s. unfold pbind, target_code, rethrow, ends. cbn. destruct (p_target u a s) as [t b].
    destruct (b_caught b), (b_result b); cbn; auto.
Qed.

Lemma steady_run {A R S} (u : puser A R S) data :
  steady (pbind (p_input u data) (fun args => p_call u args)).
Proof.
  apply steady_bind.
  - unfold p_input, pthen. apply steady_bind; [apply steady_emit|]. intros []. apply steady_user.
  - intros [a|]; cbn [p_call]; [|apply steady_ret].
    apply steady_bind; [apply steady_call|]. intros r. apply steady_ret.
Qed.

Lemma fuzz_entry_eq {A R S} (u : puser A R S) e nt stdin s :
  fuzzing e ->
  p_entry u false e nt [stdin] s =
  match pbind (p_input u stdin) (fun args => p_call u args) (HookAbort, s) with
  | (l, (h, t), PVal _) => (l, (HookTest, t), HPass)
  | (l, st, PUnwind) => (l, st, HFail)
  | (l, st, PAbort) => (l, st, HAbort)
  end.
Proof.
  intros (T & C & D & P). unfold p_entry, p_entry_body, warn_first. rewrite T, C, D, P.
  rewrite (concat_one stdin). cbn [orb].
  unfold pthen, pbind, set_hook, pret. cbn [fst snd].
  destruct (p_input u stdin (HookAbort, s)) as [[l [h0 t0]] [v| |]]; [|reflexivity..].
  destruct (p_call u v (h0, t0)) as [[l' [h t]] [w| |]]; [|reflexivity..]. cbn. now rewrite !app_nil_r.
Qed.

Lemma replay_entry_eq {A R S} (u : puser A R S) e nt stdin s :
  replaying e ->
  p_entry u false e nt [stdin] s =
  match pbind (p_input u stdin) (fun args => p_call u args) (HookTest, s) with
  | (l, st, PVal ret) =>
      match ret with
      | None => (l ++ [HNewline], st, HPass)
      | Some r =>
          match ends (fst st) (p_show_ret u r) with
          | PVal _ => (l ++ [HShowRet (pretty_print_enabled e) r; HNewline], st, HPass)
          | PUnwind => (l ++ [HShowRet (pretty_print_enabled e) r], st, HFail)
          | PAbort => (l ++ [HShowRet (pretty_print_enabled e) r], st, HAbort)
          end
      end
  | (l, st, PUnwind) => (l, st, HFail)
  | (l, st, PAbort) => (l, st, HAbort)
  end.
Proof.
  intros (T & C & D & P). unfold p_entry, p_entry_body, warn_first. rewrite T, C, D, P.
  rewrite (concat_one stdin). cbn [orb].
  unfold pthen, pbind, set_hook, pret, p_output_ret, pemit, user_code. cbn [fst snd].
  destruct (p_input u stdin (HookTest, s)) as [[l st] [v| |]]; [|reflexivity..].
  destruct (p_call u v st) as [[l' st'] [w| |]]; [|reflexivity..].
  destruct w as [r|]; cbn; [|now rewrite <- !app_assoc].
  destruct (ends (fst st') (p_show_ret u r)); cbn; now rewrite <- ?app_assoc.
Qed.

(** An input that passes when fuzzed makes the same calls when replayed and leaves
    the same state; it passes, unless printing the returned value panics. *)
Theorem C80_passing_inputs_replay :
  forall (A R S : Type) (u : puser A R S) (ef er : env) (nontrivial : bool) (stdin : bytes) (s : S) l h t,
    fuzzing ef -> replaying er ->
    p_entry u false ef nontrivial [stdin] s = (l, (h, t), HPass) ->
    exists l' result,
      p_entry u false er nontrivial [stdin] s = (l', (HookTest, t), result) /\
      h = HookTest /\ called l' = called l /\
      ((forall r, b_result (p_show_ret u r) <> None) -> result = HPass).
Proof.
  intros A R S u ef er nt stdin s l h t F Rp E.
  rewrite (fuzz_entry_eq u ef nt stdin s F) in E. rewrite (replay_entry_eq u er nt stdin s Rp).
  pose proof (steady_run u stdin s) as St.
  destruct (pbind (p_input u stdin) (fun args => p_call u args) (HookAbort, s)) as [[l0 [h0 t0]] [v| |]]; try discriminate E.
  destruct St as [-> St]. rewrite St. injection E as -> <- ->.
  destruct v as [r|].
  - cbn [fst]. unfold ends. destruct (b_result (p_show_ret u r)) eqn:B.
    + eexists _, _. split; [reflexivity|]. split; [reflexivity|]. split; [|reflexivity].
    rewrite called_app. cbn. apply app_nil_r.
    + eexists _, _. split; [reflexivity|]. split; [reflexivity|]. split.
      * rewrite called_app. cbn. apply app_nil_r.
      * intros Q. exfalso. exact (Q r B).
  - eexists _, _. split; [reflexivity|]. split; [reflexivity|]. split; [|reflexivity].
    rewrite called_app. cbn. apply app_nil_r.
Qed.
Print Assumptions C80_passing_inputs_replay.

(** Nothing that fails when replayed is missed by fuzzing (unless it is the printing
    of the returned value that fails). *)
Theorem C80_failing_replays_crash :
  forall (A R S : Type) (u : puser A R S) (ef er : env) (nontrivial : bool) (stdin : bytes) (s : S),
    fuzzing ef -> replaying er ->
    (forall r, b_result (p_show_ret u r) <> None) ->
    snd (p_entry u false er nontrivial [stdin] s) = HFail ->
    snd (p_entry u false ef nontrivial [stdin] s) = HAbort.
Proof.
  intros A R S u ef er nt stdin s F Rp Q E.
  destruct (p_entry u false ef nt [stdin] s) as [[l [h t]] res] eqn:G.
  assert (N : res <> HFail).
  { rewrite (fuzz_entry_eq u ef nt stdin s F) in G. pose proof (steady_run u stdin s) as St.
    destruct (pbind (p_input u stdin) (fun args => p_call u args) (HookAbort, s)) as [[l0 [h0 t0]] [v| |]];
      [|contradiction|]; injection G as _ _ _ <-; discriminate. }
  cbn. destruct res; [|contradiction|reflexivity].
  destruct (C80_passing_inputs_replay _ _ _ u ef er nt stdin s l h t F Rp G) as (l' & r & G' & _ & _ & P).
  rewrite G' in E. cbn in E. rewrite (P Q) in E. discriminate E.
Qed.
Print Assumptions C80_failing_replays_crash.

(** Fuzzing never ends in an ordinary test failure: the fuzzer sees an abort or a pass. *)
Theorem C80_fuzzing_passes_or_aborts :
  forall (A R S : Type) (u : puser A R S) (e : env) (nontrivial : bool) (stdin : bytes) (s : S),
    fuzzing e -> snd (p_entry u false e nontrivial [stdin] s) <> HFail.
Proof.
  intros A R S u e nt stdin s F. rewrite (fuzz_entry_eq u e nt stdin s F). pose proof (steady_run u stdin s) as St.
  destruct (pbind (p_input u stdin) (fun args => p_call u args) (HookAbort, s)) as [[l0 [h0 t0]] [v| |]];
    [|contradiction|]; discriminate.
Qed.
Print Assumptions C80_fuzzing_passes_or_aborts.

(** A target that raises and catches a panic itself: fuzzing reports a crash, as the
    hook aborts where the panic is raised. *)
Theorem C80_caught_panic_aborts :
  forall (A R S : Type) (u : puser A R S) (e : env) (nontrivial : bool) (stdin : bytes) (s : S) (a : A),
    fuzzing e -> p_execute_with u = None ->
    p_decode u stdin = Build_beh false (Some (Some a)) ->
    b_caught (snd (p_target u a s)) = true ->
    shown (p_entry u false e nontrivial [stdin] s) = ([HRead; HCall a], HAbort).
Proof.
  intros A R S u e nt stdin s a F W Dc Ct. rewrite (fuzz_entry_eq u e nt stdin s F).
  unfold pbind, p_input, pthen, pbind, pemit, user_code, p_call, call_in_environment, pbind, target_code. rewrite Dc, W. cbn.
  destruct (p_target u a s) as [t b]. cbn in Ct. rewrite Ct. reflexivity.
Qed.
Print Assumptions C80_caught_panic_aborts.

(** The example target catches a panic on 7, and panics on 9. *)
Definition catching_user : puser nat nat unit := {|
  p_decode := fun d => Build_beh false (Some match d with [] => None | _ => Some (List.length d) end);
  p_show_args := fun _ => Build_beh false (Some tt);
  p_target := fun n s => (s, Build_beh (Nat.eqb n 7) (if Nat.eqb n 9 then None else Some (n + 1)));
  p_show_ret := fun _ => Build_beh false (Some tt);
  p_execute_with := None |}.

Definition fuzz_env : env := env_extend [(lit "TEST_FUZZ", lit "1")] (fun _ => None).
Definition replay_env : env := env_extend [(lit "TEST_FUZZ", lit "1"); (lit "TEST_FUZZ_REPLAY", lit "1")] (fun _ => None).
Definition display_env : env := env_extend [(lit "TEST_FUZZ", lit "1"); (lit "TEST_FUZZ_DISPLAY", lit "1")] (fun _ => None).

Lemma fuzz_env_fuzzing : fuzzing fuzz_env. Proof. vm_compute. auto. Qed.
Lemma replay_env_replaying : replaying replay_env. Proof. vm_compute. auto. Qed.
Lemma display_env_displaying : displaying display_env. Proof. vm_compute. auto. Qed.

(** Hence a crash need not show when it is replayed. *)
Theorem C80_crashes_replay_refuted :
  exists (u : puser nat nat unit) (ef er : env) (stdin : bytes),
    fuzzing ef /\ replaying er /\
    snd (p_entry u false ef false [stdin] tt) = HAbort /\
    snd (p_entry u false er false [stdin] tt) = HPass.
Proof.
  exists catching_user, fuzz_env, replay_env, (lit "1234567").
  split; [exact fuzz_env_fuzzing|]. split; [exact replay_env_replaying|]. split; vm_compute; reflexivity.
Qed.
Print Assumptions C80_crashes_replay_refuted.

Example C80_example :
  shown (p_entry catching_user false fuzz_env true [lit "1234567"] tt) = ([HRead; HCall 7], HAbort) /\
  shown (p_entry catching_user false replay_env true [lit "1234567"] tt) = ([HRead; HCall 7; HShowRet false 8; HNewline], HPass) /\
  shown (p_entry catching_user false fuzz_env true [lit "123456789"] tt) = ([HRead; HCall 9], HAbort) /\
  shown (p_entry catching_user false replay_env true [lit "123456789"] tt) = ([HRead; HCall 9], HFail) /\
  p_entry catching_user false fuzz_env true [lit "12"] tt = ([HRead; HCall 2], (HookTest, tt), HPass).
Proof. repeat split; vm_compute; reflexivity. Qed.

(** ** C81 *)

Definition shows {A R : Type} (e : hevent A R) : Prop :=
  match e with HShowArgs _ _ | HShowRet _ _ => True | _ => False end.

Definition quiet {A R S X : Type} (x : @pm A R S X) : Prop :=
  forall s e, In e (fst (fst (x s))) -> ~ shows e.

Lemma quiet_bind {A R S X Y} (x : @pm A R S X) (f : X -> @pm A R S Y) :
  quiet x -> (forall v, quiet (f v)) -> quiet (pbind x f).
Proof.
  intros Hx Hf s e. unfold pbind. specialize (Hx s). destruct (x s) as [[l s'] [v| |]]; cbn in *; [|apply Hx..].
  specialize (Hf v s'). destruct (f v s') as [[l' s''] r]. cbn in *. rewrite in_app_iff. intros [I|I]; [now apply Hx|now apply Hf].
Qed.
Lemma quiet_silent {A R S X} (x : @pm A R S X) : (forall s, fst (fst (x s)) = []) -> quiet x.
Proof. intros H s e. rewrite H. intros []. Qed.
Lemma quiet_emit {A R S} (e : hevent A R) : ~ shows e -> quiet (@pemit A R S e).
Proof. intros H s e' [<-|[]]. exact H. Qed.
Lemma quiet_target {A R S} (u : puser A R S) a : quiet (target_code u a).
Proof. intros s e. unfold target_code. destruct (p_target u a (snd s)). intros [<-|[]] []. Qed.

Lemma quiet_call {A R S} (u : puser A R S) a : quiet (call_in_environment u a).
Proof.
  unfold call_in_environment. destruct (p_execute_with u) as [w|].
  - induction w as [b|k IH]; [now apply quiet_silent|]. cbn [run_wrap]. apply quiet_bind; [apply quiet_target|exact IH].
  - apply quiet_bind; [apply quiet_target|]. intros r. now apply quiet_silent.
Qed.

Lemma quiet_fuzz_each {A R S} (u : puser A R S) inputs : quiet (fuzz_each u inputs).
Proof.
  induction inputs as [|d l IH]; [now apply quiet_silent|]. cbn [fuzz_each]. unfold pthen.
  apply quiet_bind; [|intros _; exact IH].
  apply quiet_bind.
  - unfold p_input, pthen. apply quiet_bind; [now apply quiet_emit|]. intros _. now apply quiet_silent.
  - intros args. apply quiet_bind; [|intros _; now apply quiet_silent].
    destruct args as [a|]; cbn [p_call]; [|now apply quiet_silent].
    apply quiet_bind; [apply quiet_call|]. intros r. now apply quiet_silent.
Qed.

(** A persistent build shows neither arguments nor returned values, in any mode. *)
Theorem C81_persistent_shows_nothing :
  forall (A R S : Type) (u : puser A R S) (e : env) (nontrivial : bool) (inputs : list bytes) (s : S) ev,
    In ev (fst (shown (p_entry u true e nontrivial inputs s))) -> ~ shows ev.
Proof.
  intros A R S u e nt inputs s ev.
  assert (Q : quiet (p_entry_body u true e nt inputs)).
  { assert (QF : quiet (afl_fuzz u inputs)).
    { unfold afl_fuzz, pthen. apply quiet_bind; [now apply quiet_silent|]. intros _. apply quiet_fuzz_each. }
    unfold p_entry_body. destruct (test_fuzz_enabled e); [|now apply quiet_silent].
    destruct (coverage_enabled e || display_enabled e || replay_enabled e); unfold pthen.
    - apply quiet_bind.
      + destruct (coverage_enabled e); [|now apply quiet_silent]. destruct nt; [now apply quiet_emit|now apply quiet_silent].
      + intros _. destruct (coverage_enabled e || replay_enabled e); [exact QF|now apply quiet_silent].
    - apply quiet_bind; [now apply quiet_silent|]. intros _. apply quiet_bind; [exact QF|]. intros _. now apply quiet_silent. }
  specialize (Q (HookTest, s) ev). unfold p_entry, shown, warn_first.
  destruct (p_entry_body u true e nt inputs (HookTest, s)) as [[l s'] r]. cbn in *.
  rewrite in_app_iff. intros [I|I]; [|now apply Q].
  destruct (test_fuzz_enabled e); cbn in I; [contradiction|]. destruct I as [<-|[]]; auto.
Qed.
Print Assumptions C81_persistent_shows_nothing.

(** In particular --display with --persistent does nothing at all. *)
Theorem C81_persistent_display_inert :
  forall (A R S : Type) (u : puser A R S) (e : env) (nontrivial : bool) (inputs : list bytes) (s : S),
    displaying e -> p_entry u true e nontrivial inputs s = ([], (HookTest, s), HPass).
Proof.
  intros A R S u e nt inputs s (T & C & D & P). unfold p_entry, p_entry_body, warn_first. rewrite T, C, D, P. reflexivity.
Qed.
Print Assumptions C81_persistent_display_inert.

(** So --persistent --display shows nothing where --display shows the arguments. *)
Theorem C81_display_shows_arguments_refuted :
  exists (u : puser nat nat unit) (e : env) (stdin : bytes) (a : nat),
    displaying e /\ p_decode u stdin = Build_beh false (Some (Some a)) /\
    shown (p_entry u false e false [stdin] tt) = ([HRead; HShowArgs false a; HNewline], HPass) /\
    shown (p_entry u true e false [stdin] tt) = ([], HPass).
Proof.
  exists catching_user, display_env, (lit "123"), 3.
  split; [exact display_env_displaying|]. repeat split; vm_compute; reflexivity.
Qed.
Print Assumptions C81_display_shows_arguments_refuted.

(** One input handled by the closure of [afl::fuzz!], from a state. *)
Definition alone {A R S : Type} (u : puser A R S) (e : env) (data : bytes) (s : S) : list (hevent A R) * hresult :=
  shown (p_entry u false e false [data] s).

(** What a run over several inputs should be: the separate runs one after the other,
    up to and including the first that aborts. *)
Fixpoint one_by_one {X : Type} (runs : list (list X * hresult)) : list X * hresult :=
  match runs with
  | [] => ([], HPass)
  | (l, HPass) :: rest => let (l', r) := one_by_one rest in (l ++ l', r)
  | (l, r) :: _ => (l, r)
  end.

(** The behaviour of the target does not depend on its state. *)
Definition stateless {A R S : Type} (u : puser A R S) : Prop :=
  forall a s s', snd (p_target u a s) = snd (p_target u a s').

Definition same_run {A R S X : Type} (x : @pm A R S X) : Prop :=
  forall h s s', fst (fst (x (h, s))) = fst (fst (x (h, s'))) /\ snd (x (h, s)) = snd (x (h, s')) /\
                 fst (snd (fst (x (h, s)))) = fst (snd (fst (x (h, s')))).

Lemma same_bind {A R S X Y} (x : @pm A R S X) (f : X -> @pm A R S Y) :
  same_run x -> (forall v, same_run (f v)) -> same_run (pbind x f).
Proof.
  intros Hx Hf h s s'. unfold pbind. specialize (Hx h s s').
  destruct (x (h, s)) as [[l [h1 t]] r], (x (h, s')) as [[l' [h2 t']] r']. cbn in Hx. destruct Hx as (-> & -> & ->).
  destruct r' as [v| |]; cbn; auto.
  specialize (Hf v h2 t t'). destruct (f v (h2, t)) as [[m [k1 w]] q], (f v (h2, t')) as [[m' [k2 w']] q'].
  cbn in *. destruct Hf as (-> & -> & ->). auto.
Qed.

Lemma same_target {A R S} (u : puser A R S) a : stateless u -> same_run (target_code u a).
Proof.
  intros H h s s'. unfold target_code. cbn [fst snd]. specialize (H a s s').
  destruct (p_target u a s) as [t b], (p_target u a s') as [t' b']. cbn in H. subst b'. cbn. auto.
Qed.

Lemma same_process {A R S} (u : puser A R S) data :
  stateless u -> same_run (pbind (p_input u data) (fun args => p_call u args)).
Proof.
  intros H. apply same_bind.
  - intros h s s'. cbn. auto.
  - intros [a|]; cbn [p_call]; [|intros h s s'; cbn; auto].
    apply same_bind; [|intros r h s s'; cbn; auto].
    unfold call_in_environment. destruct (p_execute_with u) as [w|].
    + induction w as [b|k IH]; [intros h s s'; cbn; auto|]. cbn [run_wrap]. apply same_bind; [now apply same_target|exact IH].
    + apply same_bind; [now apply same_target|]. intros r h s s'. cbn. auto.
Qed.

Lemma fuzz_each_spec {A R S} (u : puser A R S) e inputs s t0 :
  stateless u -> fuzzing e ->
  let r := fuzz_each u inputs (HookAbort, s) in
  (fst (fst r), match snd r with PVal _ => HPass | PUnwind => HFail | PAbort => HAbort end)
  = one_by_one (map (fun d => alone u e d t0) inputs).
Proof.
  intros St F. revert s. induction inputs as [|d l IH]; intros s; [reflexivity|].
  cbn [fuzz_each map one_by_one]. unfold alone at 1. rewrite (fuzz_entry_eq u e false d t0 F).
  pose proof (same_process u d St HookAbort s t0) as Sm. pose proof (steady_run u d s) as Sr.
  remember (pbind (p_input u d) (fun args => p_call u args)) as X eqn:EX.
  assert (E : forall st, pthen (pbind (p_input u d) (fun args => pbind (p_call u args) (fun _ => pret tt))) (fuzz_each u l) st
     = match X st with
       | (l1, st', PVal _) => let '(l2, st'', r) := fuzz_each u l st' in (l1 ++ l2, st'', r)
       | (l1, st', PUnwind) => (l1, st', PUnwind)
       | (l1, st', PAbort) => (l1, st', PAbort)
       end).
  { intros st. rewrite EX. unfold pthen, pbind, pret. destruct (p_input u d st) as [[l1 st1] [v| |]]; [|reflexivity..].
    destruct (p_call u v st1) as [[l2 st2] [w| |]]; [|reflexivity..]. rewrite app_nil_r. reflexivity. }
  cbv zeta in *. rewrite E. clear E EX.
  destruct (X (HookAbort, s)) as [[l1 [h1 s1]] r1], (X (HookAbort, t0)) as [[l2 [h2 s2]] r2].
  cbn in Sm. destruct Sm as (-> & -> & ->).
  destruct r2 as [v| |]; [|contradiction|reflexivity].
  destruct Sr as [-> _]. specialize (IH s1). cbn [shown fst snd].
  destruct (fuzz_each u l (HookAbort, s1)) as [[l3 st3] r3]. cbn in *.
  rewrite <- IH. reflexivity.
Qed.

(** Persistent fuzzing of a target without state is fuzzing the inputs one by one,
    each in a process of its own ([t0]: the state a process starts in). *)
Theorem C81_persistent_one_by_one :
  forall (A R S : Type) (u : puser A R S) (e : env) (nontrivial : bool) (inputs : list bytes) (s t0 : S),
    fuzzing e -> stateless u ->
    shown (p_entry u true e nontrivial inputs s) = one_by_one (map (fun d => alone u e d t0) inputs).
Proof.
  intros A R S u e nt inputs s t0 F St. rewrite <- (fuzz_each_spec u e inputs s t0 St F).
  destruct F as (T & C & D & P). unfold p_entry, p_entry_body, warn_first, shown. rewrite T, C, D, P. cbn [orb].
  unfold afl_fuzz, pthen, pbind, set_hook. cbn [fst snd app].
  destruct (fuzz_each u inputs (HookAbort, s)) as [[l st] [[]| |]]; cbn; rewrite ?app_nil_r; reflexivity.
Qed.
Print Assumptions C81_persistent_one_by_one.

(** The example target counts its calls and panics at the third. *)
Definition counting_user : puser nat nat nat := {|
  p_decode := fun d => Build_beh false (Some match d with [] => None | _ => Some (List.length d) end);
  p_show_args := fun _ => Build_beh false (Some tt);
  p_target := fun n s => (S s, Build_beh false (if Nat.eqb s 2 then None else Some n));
  p_show_ret := fun _ => Build_beh false (Some tt);
  p_execute_with := None |}.

(** With state this fails: inputs that pass one by one crash together. *)
Theorem C81_independent_inputs_refuted :
  exists (u : puser nat nat nat) (e : env) (inputs : list bytes) (s : nat),
    fuzzing e /\ Forall (fun d => snd (alone u e d s) = HPass) inputs /\
    snd (shown (p_entry u true e false inputs s)) = HAbort.
Proof.
  exists counting_user, fuzz_env, [lit "a"; lit "bb"; lit "ccc"], 0.
  split; [exact fuzz_env_fuzzing|]. split; [repeat constructor|vm_compute; reflexivity].
Qed.
Print Assumptions C81_independent_inputs_refuted.

(** Replaying with a persistent build aborts the process on a panic instead of failing the test. *)
Theorem C81_persistent_replay_aborts :
  forall (A R S : Type) (u : puser A R S) (e : env) (nontrivial : bool) (data : bytes) (rest : list bytes) (s : S) (a : A),
    replaying e -> p_execute_with u = None ->
    p_decode u data = Build_beh false (Some (Some a)) ->
    b_result (snd (p_target u a s)) = None ->
    shown (p_entry u true e nontrivial (data :: rest) s) = ([HRead; HCall a], HAbort).
Proof.
  intros A R S u e nt data rest s a (T & C & D & P) W Dc Rs.
  unfold p_entry, p_entry_body, warn_first, shown. rewrite T, C, D, P. cbn [orb].
  unfold afl_fuzz. cbn [fuzz_each].
  unfold pthen, pbind, set_hook, p_input, pthen, pbind, pemit, user_code, p_call, call_in_environment, pbind, target_code, ends, pret.
  rewrite Dc, W. cbn. destruct (p_target u a s) as [t b]. cbn in *. rewrite Rs. destruct (b_caught b); reflexivity.
Qed.
Print Assumptions C81_persistent_replay_aborts.

Example C81_example :
  shown (p_entry catching_user true fuzz_env true [lit "12"; []; lit "123456789"; lit "1"] tt)
    = ([HRead; HCall 2; HRead; HRead; HCall 9], HAbort) /\
  shown (p_entry catching_user true replay_env true [lit "12"] tt) = ([HRead; HCall 2], HPass) /\
  shown (p_entry catching_user true display_env true [lit "12"] tt) = ([], HPass) /\
  stateless catching_user.
Proof. repeat split; try (vm_compute; reflexivity). Qed.

(** ** C82 *)

Definition only_calls {A R S X : Type} (Q : A -> Prop) (x : @pm A R S X) : Prop :=
  forall s a, In (HCall a) (fst (fst (x s))) -> Q a.

Lemma only_bind {A R S X Y} Q (x : @pm A R S X) (f : X -> @pm A R S Y) :
  only_calls Q x -> (forall s v, snd (x s) = PVal v -> only_calls Q (f v)) -> only_calls Q (pbind x f).
Proof.
  intros Hx Hf s a. unfold pbind. specialize (Hx s). specialize (Hf s). destruct (x s) as [[l s'] [v| |]]; cbn in *; [|apply Hx..].
  specialize (Hf v eq_refl s'). destruct (f v s') as [[l' s''] r]. cbn in *. rewrite in_app_iff. intros [I|I]; [now apply Hx|now apply Hf].
Qed.
Lemma only_silent {A R S X} Q (x : @pm A R S X) : (forall s, fst (fst (x s)) = []) -> only_calls Q x.
Proof. intros H s a. rewrite H. intros []. Qed.
Lemma only_emit {A R S} (Q : A -> Prop) (e : hevent A R) : (forall a, e <> HCall a) -> only_calls Q (@pemit A R S e).
Proof. intros H s a [I|[]]. exfalso. exact (H a I). Qed.

Lemma only_call {A R S} (u : puser A R S) a : only_calls (fun a' => a' = a) (call_in_environment u a).
Proof.
  assert (T : only_calls (fun a' => a' = a) (target_code u a)).
  { intros s a'. unfold target_code. destruct (p_target u a (snd s)). intros [[= <-]|[]]. reflexivity. }
  unfold call_in_environment. destruct (p_execute_with u) as [w|].
  - induction w as [b|k IH]; [now apply only_silent|]. cbn [run_wrap]. apply only_bind; [exact T|]. intros s r _. apply IH.
  - apply only_bind; [exact T|]. intros s r _. now apply only_silent.
Qed.

(** [a] is what one of the inputs decodes to. *)
Definition decoded_from {A R S : Type} (u : puser A R S) (inputs : list bytes) (a : A) : Prop :=
  exists d, In d inputs /\ b_result (p_decode u d) = Some (Some a).

Lemma input_val {A R S} (u : puser A R S) d s v : snd (p_input u d s) = PVal v -> b_result (p_decode u d) = Some v.
Proof.
  unfold p_input, pthen, pbind, pemit, user_code, ends. cbn.
  destruct (fst s), (b_caught (p_decode u d)), (b_result (p_decode u d)); cbn; congruence.
Qed.

Lemma only_input {A R S} (u : puser A R S) Q d : only_calls Q (p_input u d).
Proof. unfold p_input, pthen. apply only_bind; [now apply only_emit|]. intros s v _. now apply only_silent. Qed.

Lemma only_p_call {A R S} (u : puser A R S) d args (Q : A -> Prop) :
  (forall a, b_result (p_decode u d) = Some (Some a) -> Q a) ->
  b_result (p_decode u d) = Some args -> only_calls Q (p_call u args).
Proof.
  intros H E. destruct args as [a|]; cbn [p_call]; [|now apply only_silent].
  apply only_bind; [|intros s r _; now apply only_silent].
  intros s a' I. rewrite (only_call u a s a' I). now apply H.
Qed.

Lemma only_fuzz_each {A R S} (u : puser A R S) inputs : only_calls (decoded_from u inputs) (fuzz_each u inputs).
Proof.
  assert (G : forall all, incl inputs all -> only_calls (decoded_from u all) (fuzz_each u inputs)).
  { induction inputs as [|d l IH]; intros all Inc; [now apply only_silent|]. cbn [fuzz_each]. unfold pthen.
    apply only_bind; [|intros s v _; apply IH; intros x Hx; apply Inc; now right].
    apply only_bind; [apply only_input|]. intros s args E. apply input_val in E.
    apply only_bind; [|intros s' v _; now apply only_silent].
    apply (only_p_call u d); [|exact E]. intros a Ea. exists d. split; [apply Inc; now left|exact Ea]. }
  apply G. apply incl_refl.
Qed.

(** Whatever execute_with does, in whatever mode, the target is only ever called with
    arguments an input decodes to. *)
Theorem C82_only_decoded_arguments :
  forall (A R S : Type) (u : puser A R S) (persistent : bool) (e : env) (nontrivial : bool) (inputs : list bytes) (s : S) (a : A),
    In a (called (fst (shown (p_entry u persistent e nontrivial inputs s)))) ->
    decoded_from u (if persistent then inputs else [List.concat inputs]) a.
Proof.
  intros A R S u persistent e nt inputs s a I.
  assert (I' : In (HCall a) (fst (shown (p_entry u persistent e nt inputs s)))).
  { revert I. generalize (fst (shown (p_entry u persistent e nt inputs s))). clear.
    induction l as [|[] l IH]; cbn; intros I; try (right; now apply IH); [contradiction|].
    destruct I as [->|I]; [now left|right; now apply IH]. }
  clear I. set (Q := decoded_from u (if persistent then inputs else [List.concat inputs])).
  assert (O : only_calls Q (p_entry_body u persistent e nt inputs)).
  { assert (OF : persistent = true -> only_calls Q (afl_fuzz u inputs)).
    { intros ->. unfold afl_fuzz, pthen. apply only_bind; [now apply only_silent|]. intros _ _ _. apply only_fuzz_each. }
    assert (OC : persistent = false -> forall args, b_result (p_decode u (List.concat inputs)) = Some args -> only_calls Q (p_call u args)).
    { intros Pf args E. apply (only_p_call u (List.concat inputs)); [|exact E]. intros a' Ea. unfold Q. rewrite Pf.
      exists (List.concat inputs). split; [now left|exact Ea]. }
    unfold p_entry_body. destruct (test_fuzz_enabled e); [|now apply only_silent].
    destruct (coverage_enabled e || display_enabled e || replay_enabled e); unfold pthen.
    - apply only_bind.
      + destruct (coverage_enabled e); [|now apply only_silent]. destruct nt; [now apply only_emit|now apply only_silent].
      + intros _ _ _. destruct persistent.
        * destruct (coverage_enabled e || replay_enabled e); [now apply OF|now apply only_silent].
        * apply only_bind; [apply only_input|]. intros s' args E. apply input_val in E.
          apply only_bind.
          -- destruct (display_enabled e); [|now apply only_silent]. unfold p_output_args, pthen. apply only_bind; [|intros _ _ _; now apply only_emit].
             destruct args; [|now apply only_silent]. apply only_bind; [now apply only_emit|]. intros _ _ _. now apply only_silent.
          -- intros _ _ _. destruct (coverage_enabled e || replay_enabled e); [|now apply only_silent].
             apply only_bind; [now apply OC|]. intros _ ret _. destruct (replay_enabled e); [|now apply only_silent].
             unfold p_output_ret, pthen. apply only_bind; [|intros _ _ _; now apply only_emit].
             destruct ret; [|now apply only_silent]. apply only_bind; [now apply only_emit|]. intros _ _ _. now apply only_silent.
    - apply only_bind; [now apply only_silent|]. intros _ _ _. apply only_bind; [|intros _ _ _; now apply only_silent].
      destruct persistent; [now apply OF|].
      apply only_bind; [apply only_input|]. intros s' args E. apply input_val in E.
      apply only_bind; [now apply OC|]. intros _ _ _. now apply only_silent. }
  specialize (O (HookTest, s) a). unfold p_entry, shown, warn_first in I'.
  destruct (p_entry_body u persistent e nt inputs (HookTest, s)) as [[l s'] r]. cbn in *.
  rewrite in_app_iff in I'. destruct I' as [I'|I']; [|now apply O].
  destruct (test_fuzz_enabled e); cbn in I'; [contradiction|]. destruct I' as [I'|[]]; discriminate I'.
Qed.
Print Assumptions C82_only_decoded_arguments.

(** The same user code with another execute_with. *)
Definition with_execute {A R S : Type} (u : puser A R S) (w : option (wrap R)) : puser A R S := {|
  p_decode := p_decode u; p_show_args := p_show_args u; p_target := p_target u;
  p_show_ret := p_show_ret u; p_execute_with := w |}.

(** The function that just calls its argument. *)
Definition just_call {R : Type} : wrap R := WCall (fun r => WEnd (Build_beh false r)).

Lemma just_call_eq {A R S} (u : puser A R S) a st :
  call_in_environment (with_execute u (Some just_call)) a st = call_in_environment (with_execute u None) a st.
Proof.
  unfold call_in_environment. cbn. unfold pbind, target_code, rethrow, user_code, ends. cbn.
  destruct (p_target u a (snd st)) as [t b]. cbn. destruct (fst st), (b_caught b), (b_result b); reflexivity.
Qed.

Lemma p_call_eq {A R S} (u : puser A R S) args st :
  p_call (with_execute u (Some just_call)) args st = p_call (with_execute u None) args st.
Proof. destruct args as [a|]; [|reflexivity]. cbn [p_call]. unfold pbind. now rewrite just_call_eq. Qed.

Lemma pbind_ext {A R S X Y} (x : @pm A R S X) (f g : X -> @pm A R S Y) st :
  (forall v s, f v s = g v s) -> pbind x f st = pbind x g st.
Proof. intros H. unfold pbind. destruct (x st) as [[l s] [v| |]]; [now rewrite H|reflexivity..]. Qed.

Lemma pbind_ext2 {A R S X Y} (x y : @pm A R S X) (f g : X -> @pm A R S Y) st :
  (forall s, x s = y s) -> (forall v s, f v s = g v s) -> pbind x f st = pbind y g st.
Proof. intros Hx H. unfold pbind. rewrite Hx. destruct (y st) as [[l s] [v| |]]; [now rewrite H|reflexivity..]. Qed.

Lemma fuzz_each_eq {A R S} (u : puser A R S) inputs st :
  fuzz_each (with_execute u (Some just_call)) inputs st = fuzz_each (with_execute u None) inputs st.
Proof.
  revert st. induction inputs as [|d l IH]; intros st; [reflexivity|]. cbn [fuzz_each]. unfold pthen.
  change (p_input (with_execute u (Some just_call)) d) with (p_input (with_execute u None) d).
  assert (E : forall s, pbind (p_input (with_execute u None) d) (fun args => pbind (p_call (with_execute u (Some just_call)) args) (fun _ => pret tt)) s
    = pbind (p_input (with_execute u None) d) (fun args => pbind (p_call (with_execute u None) args) (fun _ => pret tt)) s).
  { intros s. apply pbind_ext. intros v s'. unfold pbind. now rewrite p_call_eq. }
  apply pbind_ext2; [exact E|]. intros v s. apply IH.
Qed.

(** execute_with given a function that just calls its argument is no execute_with at all. *)
Theorem C82_transparent :
  forall (A R S : Type) (u : puser A R S) (persistent : bool) (e : env) (nontrivial : bool) (inputs : list bytes) (s : S),
    p_entry (with_execute u (Some just_call)) persistent e nontrivial inputs s
    = p_entry (with_execute u None) persistent e nontrivial inputs s.
Proof.
  intros A R S u persistent e nt inputs s. unfold p_entry.
  assert (E : forall st, p_entry_body (with_execute u (Some just_call)) persistent e nt inputs st
                         = p_entry_body (with_execute u None) persistent e nt inputs st).
  { intros st. unfold p_entry_body. destruct (test_fuzz_enabled e); [|reflexivity].
    assert (EF : forall st, afl_fuzz (with_execute u (Some just_call)) inputs st = afl_fuzz (with_execute u None) inputs st).
    { intros st'. unfold afl_fuzz, pthen. apply pbind_ext. intros _ s'. apply fuzz_each_eq. }
    destruct (coverage_enabled e || display_enabled e || replay_enabled e); unfold pthen.
    - apply pbind_ext. intros _ s'. destruct persistent.
      + destruct (coverage_enabled e || replay_enabled e); [apply EF|reflexivity].
      + apply (pbind_ext (p_input (with_execute u None) (List.concat inputs))). intros args s1.
        apply (pbind_ext (if display_enabled e then p_output_args (with_execute u None) e args else pret tt)). intros _ s2.
        destruct (coverage_enabled e || replay_enabled e); [|reflexivity].
        apply pbind_ext2; [intros s3; apply p_call_eq|reflexivity].
    - apply pbind_ext. intros _ s'. apply pbind_ext2; [|reflexivity]. intros s0.
      destruct persistent; [apply EF|].
      apply (pbind_ext (p_input (with_execute u None) (List.concat inputs))). intros args s1.
      apply pbind_ext2; [intros s3; apply p_call_eq|reflexivity]. }
  now rewrite E.
Qed.
Print Assumptions C82_transparent.

(** The target runs inside execute_with only: if the function never calls its
    argument, the target is never called. *)
Theorem C82_never_outside :
  forall (A R S : Type) (u : puser A R S) (b : beh R) (e : env) (nontrivial : bool) (data : bytes) (s : S) (a : A),
    fuzzing e -> p_execute_with u = Some (WEnd b) ->
    p_decode u data = Build_beh false (Some (Some a)) ->
    shown (p_entry u false e nontrivial [data] s)
    = ([HRead], if b_caught b then HAbort else match b_result b with Some _ => HPass | None => HAbort end).
Proof.
  intros A R S u b e nt data s a F W Dc. rewrite (fuzz_entry_eq u e nt data s F).
  unfold pbind, p_input, pthen, pbind, pemit, user_code, p_call, call_in_environment, pbind. rewrite Dc, W. cbn.
  destruct (b_caught b), (b_result b); reflexivity.
Qed.
Print Assumptions C82_never_outside.

(** The example calls the target, and once more if it panicked. *)
Definition retry : wrap nat :=
  WCall (fun r => match r with
                  | Some x => WEnd (Build_beh false (Some x))
                  | None => WCall (fun r' => WEnd (Build_beh false (Some (match r' with Some x => x | None => 0 end))))
                  end).

Example C82_example :
  shown (p_entry (with_execute catching_user (Some retry)) false replay_env true [lit "123456789"] tt)
    = ([HRead; HCall 9; HCall 9; HShowRet false 0; HNewline], HPass) /\
  shown (p_entry (with_execute catching_user (Some retry)) false fuzz_env true [lit "123456789"] tt) = ([HRead; HCall 9], HAbort) /\
  shown (p_entry (with_execute catching_user (Some (WEnd (Build_beh false (Some 5))))) false replay_env true [lit "12"] tt)
    = ([HRead; HShowRet false 5; HNewline], HPass).
Proof. repeat split; vm_compute; reflexivity. Qed.
