(** Properties C59 and C60: handling of a fuzzer's output. *)
From Coq Require Import String List Ascii Bool Arith NArith Lia.
From Verif Require Import Base Utf8 Targets Lines.
Import ListNotations.

(** C59: whatever way the output [render ls last] ([ls] complete lines with LF or
    CRLF, [last] incomplete) is delivered in events and reads, exactly the lines [ls]
    are shown, in order, each once, and [last] is held back. *)
Theorem C59_lines_independent_of_chunks :
  forall (evs : list (list read_result)) (ls : list (str * bool)) (last : str),
    Forall readable evs -> Forall line_ok ls -> ~ In LF last ->
    List.concat (map delivered evs) = render ls last ->
    Forall (fun l => valid_utf8 l = true) (map fst ls) ->
    exists d, read_events cd_init evs = Ret (d, map fst ls) /\ cd_unprinted d = last.
Proof.
  intros evs ls last R F N E V. destruct (read_all_lines evs ls last R F N E V) as (d & H1 & H2 & _). eauto.
Qed.
Print Assumptions C59_lines_independent_of_chunks.

(** C59: every output is of that form, so the previous theorem is about every output. *)
Theorem C59_every_output :
  forall (d : bytes), exists ls last, Forall line_ok ls /\ ~ In LF last /\ d = render ls last.
Proof. exact render_complete. Qed.
Print Assumptions C59_every_output.

(** C59: invalid UTF-8 in a complete line is an error, however it is chunked. *)
Theorem C59_invalid_utf8_is_error :
  forall (evs : list (list read_result)) (ls : list (str * bool)) (last : str),
    Forall readable evs -> Forall line_ok ls -> ~ In LF last ->
    List.concat (map delivered evs) = render ls last ->
    ~ Forall (fun l => valid_utf8 l = true) (map fst ls) ->
    exists e, read_events cd_init evs = Err e.
Proof. exact read_all_lines_invalid. Qed.
Print Assumptions C59_invalid_utf8_is_error.

(** C59: a failing read is never ignored. *)
Theorem C59_read_error_is_error :
  forall (evs : list (list read_result)), ~ Forall readable evs ->
  forall d r, read_events d evs <> Ret r.
Proof. exact read_events_err. Qed.
Print Assumptions C59_read_error_is_error.

Definition ex_events : list (list read_result) :=
  [[RData (lit "ab"); RData (lit "c" ++ [LF] ++ lit "Time limit was rea"); RBlock];
   [RBlock]; [RData (lit "ched"); RData [CR]; RData ([LF] ++ lit "tail"); REof]].

Example C59_example :
  List.concat (map delivered ex_events)
  = render [(lit "abc", false); (lit "Time limit was reached", true)] (lit "tail") /\
  read_events cd_init ex_events
  = Ret ({| cd_unprinted := lit "tail"; cd_time_limit := true; cd_aborted := false |},
         [lit "abc"; lit "Time limit was reached"]).
Proof. split; vm_compute; reflexivity. Qed.

(** C60: the markers are recognised iff a complete line contains them. *)
Theorem C60_markers_exact :
  forall (evs : list (list read_result)) (ls : list (str * bool)) (last : str) (d : cdata) (shown : list str),
    Forall readable evs -> Forall line_ok ls -> ~ In LF last ->
    List.concat (map delivered evs) = render ls last ->
    read_events cd_init evs = Ret (d, shown) ->
    (cd_time_limit d = true <->
       exists l, In l (map fst ls) /\ occurs (lit "Time limit was reached") l) /\
    (cd_aborted d = true <->
       exists l, In l (map fst ls) /\ occurs (lit "+++ Testing aborted programmatically +++") l).
Proof.
  intros evs ls last d shown R F N E H.
  destruct (Forall_dec (fun l => valid_utf8 l = true) (fun l => bool_dec (valid_utf8 l) true) (map fst ls)) as [V|V].
  - destruct (read_all_lines evs ls last R F N E V) as (d' & H1 & _ & H2). rewrite H in H1.
    injection H1 as -> _. exact H2.
  - destruct (read_all_lines_invalid evs ls last R F N E V) as [e He]. congruence.
Qed.
Print Assumptions C60_markers_exact.

Example C60_example :
  exists d shown, read_events cd_init ex_events = Ret (d, shown) /\ cd_time_limit d = true /\ cd_aborted d = false.
Proof. eexists. eexists. split; [vm_compute; reflexivity|]. split; reflexivity. Qed.
