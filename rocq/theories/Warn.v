(** The warnings the parallel fuzzing loop prints on stderr. *)
From Coq Require Import String List Ascii Bool Arith NArith Lia.
From Verif Require Import Base Utf8 Lines Ui Sched.
Import ListNotations.

(** [itertools::join] (external) with a line feed. *)
Fixpoint join_lf (ls : list str) : str :=
  match ls with
  | [] => []
  | [l] => l
  | l :: ls' => l ++ [LF] ++ join_lf ls'
  end.

(** cargo-test-fuzz/src/lib.rs:1384-1390; [exec] is the command as printed by [{:?}]. *)
Definition failed_text (target exec : str) (buffer : list str) : str :=
  lit "Warning: Command failed for target " ++ target ++ lit ": " ++ exec ++ [LF]
  ++ lit "stdout: ```" ++ [LF] ++ join_lf buffer ++ [LF] ++ lit "```" ++ [LF].

(** cargo-test-fuzz/src/lib.rs:1396-1399. *)
Definition unfinished_text (target exec : str) : str :=
  lit "Warning: Could not find ""Testing aborted programmatically"" in command output for target "
  ++ target ++ lit ": " ++ exec ++ [LF].

Section Warn.
  Variables (strip : bytes -> bytes) (k : cfg).
  (** The command of a target's fuzzer, as printed.  Simplification: a target's command is
      printed alike for all of its runs. *)
  Variable exec : nat -> str.

  (** cargo-test-fuzz/src/lib.rs:1343-1409: the warnings of one event; what else happens is
      [event_step]. *)
  Definition event_warnings (s : sstate) (ev : event) : list str :=
    let i := ev_token ev in
    match nth_error (s_children s) i with
    | Some (Some c) =>
        match read_event (ch_data c) (ev_reads ev) with
        | Ret (d, ls) =>
            if ev_closed ev && ev_deregister ev && negb (s_n s =? 0) then
              match ev_wait ev with
              | Some false => [failed_text (name_at k i) (exec i) (if k_no_ui k then ch_buffer c else ch_buffer c ++ ls)]
              | Some true => if cd_aborted d then [] else [unfinished_text (name_at k i) (exec i)]
              | None => []
              end
            else []
        | _ => []
        end
    | _ => []
    end.

  (** cargo-test-fuzz/src/lib.rs:1343: all events of a batch. *)
  Fixpoint events_warnings (s : sstate) (evs : list event) : list str :=
    match evs with
    | [] => []
    | ev :: evs' =>
        event_warnings s ev ++ match event_step k s ev with (Go s', _) => events_warnings s' evs' | _ => [] end
    end.

  (** cargo-test-fuzz/src/lib.rs:1268-1410, one iteration: only the loop over the events of
      a poll prints warnings. *)
  Definition step_warnings (s : sstate) (x : input) : list str :=
    match refresh strip (k_no_ui k) (in_size x) (s_n s) (s_children s) with
    | Ret (_, cs) =>
        if (List.length (s_failed s) =? k_n k)
           || ((s_n s <? k_cpus k) && ((s_task s <? k_n k) || negb (sufficient k)))
           || (s_n s =? 0) then []
        else match in_poll x with
             | Some evs => events_warnings {| s_children := cs; s_n := s_n s; s_task := s_task s; s_iter := s_iter s;
                                              s_failed := s_failed s; s_prev := s_prev s |} evs
             | None => []
             end
    | _ => []
    end.

  Fixpoint run_warnings (s : sstate) (xs : list input) : list str :=
    match xs with
    | [] => []
    | x :: xs' => step_warnings s x ++ match step strip k s x with (Go s', _) => run_warnings s' xs' | _ => [] end
    end.
End Warn.

(** * Specification *)

(** The ends of fuzzers that mark their target as failed: what happened before, the target and
    the success of the fuzzer. *)
Fixpoint bad_ends (h t : list out) : list (list out * nat * bool) :=
  match t with
  | [] => []
  | o :: t' => match o with OEnd i ok true => [(h, i, ok)] | _ => [] end ++ bad_ends (h ++ [o]) t'
  end.

(** The lines of target [i]'s fuzzer since it was started or the screen was redrawn. *)
Definition since_step (i : nat) (acc : list str) (o : out) : list str :=
  match o with
  | OStart j _ _ => if j =? i then [] else acc
  | OScreen _ => []
  | OLine j l => if j =? i then acc ++ [l] else acc
  | _ => acc
  end.
Definition since_screen (t : list out) (i : nat) : list str := fold_left (since_step i) t [].

(** The warning for a bad end. *)
Definition warning (k : cfg) (exec : nat -> str) (w : str) (e : list out * nat * bool) : Prop :=
  let '(h, i, ok) := e in
  exists target, nth_error (k_names k) i = Some target /\
  if ok then
    w = lit "Warning: Could not find ""Testing aborted programmatically"" in command output for target "
        ++ target ++ lit ": " ++ exec i ++ [LF]
  else exists old kept,
    cur_lines h i = old ++ kept ++ since_screen h i /\
    w = lit "Warning: Command failed for target " ++ target ++ lit ": " ++ exec i ++ [LF] ++ lit "stdout: ```" ++ [LF]
        ++ (if k_no_ui k then [] else join_lf (kept ++ since_screen h i)) ++ [LF] ++ lit "```" ++ [LF].

(** * Proof *)

Lemma bad_ends_app a : forall h b, bad_ends h (a ++ b) = bad_ends h a ++ bad_ends (h ++ a) b.
Proof.
  induction a as [|o a IH]; intros h b; cbn [app bad_ends]; [now rewrite app_nil_r|].
  rewrite IH, <- !app_assoc. reflexivity.
Qed.

Lemma since_app a b i : since_screen (a ++ b) i = fold_left (since_step i) b (since_screen a i).
Proof. unfold since_screen. apply fold_left_app. Qed.
