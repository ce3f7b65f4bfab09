(** C99: the time limit of replaying and displaying. *)
From Coq Require Import Ascii String List Bool Arith NArith Lia.
From Verif Require Import Base Utf8 Lossy Dirs Opts Targets Entries Timing.
Import ListNotations.

(** A process that holds its error output until it exits, and is alone in that. *)
Definition simple (p : process) : Prop :=
  q_close p = match q_exit p with Some (t, _, _) => Some t | None => None end.

(** C99: a simple process that exits within the limit is shown with all of its output and its
    status, as soon as it exits; any other is stopped at the limit and shown with what it had
    written by then. *)
Theorem C99_limit :
  forall (secs : N) (p : process), simple p ->
    match q_exit p with
    | Some (e, ok, shown) =>
        ((e <= secs)%N -> observe secs p = Some (e, PExit (written p e) ok shown)) /\
        ((secs < e)%N -> observe secs p = Some (secs, PTimeout (written p secs)))
    | None => observe secs p = Some (secs, PTimeout (written p secs))
    end.
Proof.
  intros secs p S. unfold simple in S. unfold observe. destruct (q_exit p) as [[[e ok] shown]|]; rewrite S; [|reflexivity].
  split; intros H.
  - apply N.leb_le in H. rewrite H, N.max_id. reflexivity.
  - apply N.leb_gt in H. now rewrite H.
Qed.
Print Assumptions C99_limit.

(** C99: so all simple processes together take at most the limit each, and each gets a result. *)
Theorem C99_total_time :
  forall (secs : N) (ps : list process), (forall p, In p ps -> simple p) ->
    exists t rs, observe_all secs ps = Some (t, rs) /\ (t <= secs * N.of_nat (List.length ps))%N /\
      Forall2 (fun p r => exists t', observe secs p = Some (t', r)) ps rs.
Proof.
  intros secs ps S. induction ps as [|p ps IH].
  - exists 0%N, []. split; [reflexivity|]. split; [lia|constructor].
  - destruct IH as (t & rs & E & L & F); [intros; apply S; now right|].
    assert (O : exists t0 r, observe secs p = Some (t0, r) /\ (t0 <= secs)%N).
    { pose proof (C99_limit secs p (S p (or_introl eq_refl))) as H. destruct (q_exit p) as [[[e ok] shown]|].
      - destruct (N.le_gt_cases e secs) as [K|K]; [rewrite (proj1 H K)|rewrite (proj2 H K)]; do 2 eexists; (split; [reflexivity|lia]).
      - rewrite H. do 2 eexists. split; [reflexivity|lia]. }
    destruct O as (t0 & r & O & L0). exists (t0 + t)%N, (r :: rs). cbn [observe_all]. rewrite O, E.
    split; [reflexivity|]. split; [cbn [List.length]; nia|]. constructor; [eauto|exact F].
Qed.
Print Assumptions C99_total_time.

(** C99: when the tool waits for ever, exactly. *)
Theorem C99_hangs_exact :
  forall (secs : N) (p : process),
    observe secs p = None <-> (exists c, q_close p = Some c /\ (c <= secs)%N) /\ q_exit p = None.
Proof.
  intros secs p. unfold observe. destruct (q_close p) as [c|].
  - destruct (c <=? secs)%N eqn:E.
    + apply N.leb_le in E. destruct (q_exit p) as [[[e ok] shown]|]; split; try discriminate; eauto. intros [_ K]. discriminate K.
    + apply N.leb_gt in E. split; [discriminate|]. intros [(c' & [= <-] & K) _]. lia.
  - split; [discriminate|]. intros [(c & K & _) _]. discriminate K.
Qed.
Print Assumptions C99_hangs_exact.

(** C99: "every entry is done with within the time limit" is refuted: a harness that closes its
    error output and goes on is waited for, whatever the limit. *)
Theorem C99_limit_enforced_refuted :
  exists p : process, q_close p = Some 0%N /\ forall secs, observe secs p = None.
Proof.
  exists {| q_writes := []; q_close := Some 0%N; q_exit := None |}. split; [reflexivity|]. intros secs.
  apply C99_hangs_exact. split; [|reflexivity]. exists 0%N. split; [reflexivity|lia].
Qed.
Print Assumptions C99_limit_enforced_refuted.

(** C99: "a timeout is shown only for a harness that runs too long" is refuted: a harness that
    exits at once, leaving a process that holds its error output, is shown as a timeout. *)
Theorem C99_timeout_means_slow_refuted :
  exists p : process, q_exit p = Some (0%N, true, lit "Exited(0)") /\ forall secs, exists b, observe secs p = Some (secs, PTimeout b).
Proof.
  exists {| q_writes := []; q_close := None; q_exit := Some (0%N, true, lit "Exited(0)") |}. split; [reflexivity|].
  intros secs. eexists. reflexivity.
Qed.
Print Assumptions C99_timeout_means_slow_refuted.

(** Limit three seconds: a quick failure, and an endless loop that writes something every two seconds. *)
Example C99_example :
  let quick := {| q_writes := [(0%N, lit "args: 1"); (1%N, lit " panicked")]; q_close := Some 1%N; q_exit := Some (1%N, false, lit "Exited(101)") |} in
  let loop := {| q_writes := [(2%N, lit "a"); (4%N, lit "b")]; q_close := None; q_exit := None |} in
  simple quick /\ simple loop /\
  observe_all 3 [quick; loop] = Some (4%N, [PExit (lit "args: 1 panicked") false (lit "Exited(101)"); PTimeout (lit "a")]).
Proof. vm_compute. auto. Qed.
