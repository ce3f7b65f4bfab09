(** C141: the tests that fuzz samples. *)
From Coq Require Import String List Ascii Bool Arith NArith Lia.
From stdpp Require Import gmap strings.
From Verif Require Import Base Utf8 Lossy Env Dirs Opts Targets Semver Sha1 Fs Write Meta FuzzCmd Build AutoGen Run RunFacts PropsRun Support FuzzTests.
From Verif Require Decimal Consolidate Entries Lines Sched Ui PropsSched PropsFuzzCmd PropsSupport.
Import ListNotations.
Local Open Scope nat_scope.

(** Such a test passes exactly if some attempt gives the code, and those before give other codes; it
    fails exactly if all give other codes. *)
Theorem C141_passes :
  forall (code : nat) (o : opts) (l : list (world * fs)),
    let gives x c := status (snd (run (fst x) o (snd x))) = Some c in
    (attempts code o l = TPass <-> exists a x b, l = a ++ x :: b /\ gives x code /\ forall y, In y a -> exists c, gives y c /\ c <> code) /\
    (attempts code o l = TFail <-> forall y, In y l -> exists c, gives y c /\ c <> code).
Proof.
  intros code o l gives. induction l as [|(w, m) l (IP & IF)].
  - cbn. split; [split; [discriminate|intros (a & x & b & E & _); destruct a; discriminate E]|split; [intros _ y []|reflexivity]].
  - cbn [attempts]. destruct (status (snd (run w o m))) as [n|] eqn:S.
    + assert (G : gives (w, m) n) by exact S. destruct (Nat.eqb_spec n code) as [->|N].
      * split; (split; intros H).
        -- exists [], (w, m), l. split; [reflexivity|]. split; [exact G|intros y []].
        -- reflexivity.
        -- discriminate.
        -- destruct (H (w, m) (or_introl eq_refl)) as (c & C & D). unfold gives in C. cbn [fst snd] in C. congruence.
      * rewrite IP, IF. split; (split; intros H).
        -- destruct H as (a & x & b & -> & X & A). exists ((w, m) :: a), x, b. split; [reflexivity|]. split; [exact X|]. intros y [<-|I]; [now exists n|now apply A].
        -- destruct H as (a & x & b & E & X & A). destruct a as [|y a]; cbn in E; injection E as <- ->; [unfold gives in X; cbn [fst snd] in X; congruence|].
           exists a, x, b. split; [reflexivity|]. split; [exact X|]. intros y I. apply A. now right.
        -- intros y [<-|I]; [now exists n|now apply H].
        -- intros y I. apply H. now right.
    + split; (split; intros H); try discriminate.
      * destruct H as (a & x & b & E & X & A). destruct a as [|y a]; cbn in E; injection E as <- ->; [unfold gives in X; cbn [fst snd] in X; congruence|].
        destruct (A (w, m) (or_introl eq_refl)) as (c & C & _). unfold gives in C. cbn [fst snd] in C. congruence.
      * destruct (H (w, m) (or_introl eq_refl)) as (c & C & _). unfold gives in C. cbn [fst snd] in C. congruence.
Qed.
Print Assumptions C141_passes.

(** It does not end exactly if an attempt does not, after attempts that give other codes. *)
Theorem C141_hangs :
  forall (code : nat) (o : opts) (l : list (world * fs)),
    attempts code o l = THang <->
    exists a x b, l = a ++ x :: b /\ status (snd (run (fst x) o (snd x))) = None /\
      forall y, In y a -> exists c, status (snd (run (fst y) o (snd y))) = Some c /\ c <> code.
Proof.
  intros code o l. induction l as [|(w, m) l IH].
  - cbn. split; [discriminate|intros (a & x & b & E & _); destruct a; discriminate E].
  - cbn [attempts]. destruct (status (snd (run w o m))) as [n|] eqn:S.
    + destruct (Nat.eqb_spec n code) as [->|N].
      * split; [discriminate|]. intros (a & x & b & E & X & A). destruct a as [|y a]; cbn in E; injection E as <- ->; [cbn [fst snd] in X; congruence|].
        destruct (A (w, m) (or_introl eq_refl)) as (c & C & D). cbn [fst snd] in C. congruence.
      * rewrite IH. split.
        -- intros (a & x & b & -> & X & A). exists ((w, m) :: a), x, b. split; [reflexivity|]. split; [exact X|]. intros y [<-|I]; [now exists n|now apply A].
        -- intros (a & x & b & E & X & A). destruct a as [|y a]; cbn in E; injection E as <- ->; [cbn [fst snd] in X; congruence|].
           exists a, x, b. split; [reflexivity|]. split; [exact X|]. intros y I. apply A. now right.
    + split; [|reflexivity]. intros _. exists [], (w, m), l. split; [reflexivity|]. split; [exact S|intros y []].
Qed.
Print Assumptions C141_hangs.

(** Three attempts that all end are what [retry] makes of them. *)
Theorem C141_retry :
  forall (code : nat) (o : opts) (l : list (world * fs)),
    List.length l = 3 -> (forall x, In x l -> status (snd (run (fst x) o (snd x))) <> None) ->
    (attempts code o l = TPass <-> snd (retry 3 (attempt_at code o l)) = Ret (inl tt)) /\
    (attempts code o l = TFail <-> snd (retry 3 (attempt_at code o l)) = Ret (inr tt)).
Proof.
  intros code o l L H. destruct l as [|(w1, m1) [|(w2, m2) [|(w3, m3) [|? ?]]]]; try discriminate L.
  pose proof (H (w1, m1) ltac:(now left)) as H1. pose proof (H (w2, m2) ltac:(right; now left)) as H2. pose proof (H (w3, m3) ltac:(right; right; now left)) as H3. cbn [fst snd] in H1, H2, H3.
  unfold retry. cbn [Nat.leb retry_loop]. unfold attempt_at. cbn [Nat.sub nth_error attempts].
  destruct (status (snd (run w1 o m1))) as [n1|]; [|contradiction]. destruct (status (snd (run w2 o m2))) as [n2|]; [|contradiction]. destruct (status (snd (run w3 o m3))) as [n3|]; [|contradiction].
  destruct (n1 =? code), (n2 =? code), (n3 =? code); cbn; split; split; intros X; (reflexivity || discriminate X).
Qed.
Print Assumptions C141_retry.

(** The tests that expect a crash (code 1) pass only if in some attempt a fuzzer was stopped without
    having reached its time limit; those that expect an error (code 2) only if there was an error, and
    those that expect neither (code 0) only if some attempt came to its end with neither. *)
Theorem C141_seen :
  forall (code : nat) (o : opts) (l : list (world * fs)),
    o_exit_code o = true -> attempts code o l = TPass ->
    exists w m m' t r, In (w, m) l /\ run w o m = (m', t, r) /\
      (code = 1 -> exists os, In (AParallel os) t /\ exists t1 i t2, os = t1 ++ Sched.OEnd i true false :: t2 /\
                     ~ exists x, In x (Sched.cur_lines t1 i) /\ occurs Lines.time_limit_marker x) /\
      (code = 2 -> exists e, run_without_exit_code w (adjust o) m = (m', t, RErr e)) /\
      (code = 0 -> run_without_exit_code w (adjust o) m = (m', t, ROk tt)).
Proof.
  intros code o l X P. apply C141_passes in P as (a & (w, m) & b & -> & G & _). cbn [fst snd] in G. destruct (run w o m) as ((m', t), r) eqn:R. cbn [snd] in G.
  destruct (C44_exit_codes w o m m' t r R X) as (S2 & S1 & S0 & _). exists w, m, m', t, r. split; [apply in_or_app; right; now left|]. split; [exact R|].
  split; [|split]; intros ->; [now apply S1|now apply S2|now apply S0].
Qed.
Print Assumptions C141_seen.

(** Lines that a fuzzer prints if it stops because its time is over. *)
Definition ex_limit (i : nat) : Sched.event :=
  {| Sched.ev_token := i; Sched.ev_reads := [Lines.RData (PropsSched.ex_nl "Time limit was reached" ++ PropsSched.ex_nl "+++ Testing aborted programmatically +++"); Lines.REof];
     Sched.ev_closed := true; Sched.ev_deregister := true; Sched.ev_wait := Some true |}.
Definition ex_found : world := ex_world ex_afl_ok (map PropsSched.ex_input [[]; []; [PropsSched.ex_end 1]; []]).
Definition ex_calm : world := ex_world ex_afl_ok (map PropsSched.ex_input [[]; []; [ex_limit 0; ex_limit 1]; []]).

(** So a test that expects no crash passes although a crash was found twice. *)
Theorem C141_calm_refuted :
  exists (o : opts) (l : list (world * fs)),
    o_exit_code o = true /\ List.length l = 3 /\ attempts 0 o l = TPass /\
    forall x, In x (firstn 2 l) -> status (snd (run (fst x) o (snd x))) = Some 1.
Proof.
  exists (ex_o None None true), [(ex_found, ∅); (ex_found, ∅); (ex_calm, ∅)]. split; [reflexivity|]. split; [reflexivity|]. split; [vm_compute; reflexivity|].
  intros x [<-|[<-|[]]]; vm_compute; reflexivity.
Qed.
Print Assumptions C141_calm_refuted.

(** A crash, a session that ends when its time is over, and one that never ends. *)
Example C141_example :
  let endless := ex_world ex_afl_ok (map PropsSched.ex_input [[]; []]) in
  let t code l := attempts code (ex_o None None true) (map (fun w => (w, ∅)) l) in
  t 1 [ex_calm; ex_found; ex_calm] = TPass /\ t 1 [ex_calm; ex_calm; ex_calm] = TFail /\
  t 0 [ex_found; ex_found; ex_found] = TFail /\ t 1 [ex_calm; endless; ex_found] = THang /\
  t 2 [ex_found; ex_calm; ex_calm] = TFail.
Proof. vm_compute. repeat split; reflexivity. Qed.
