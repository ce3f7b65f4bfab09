(** The parallel fuzzing loop. *)
From Coq Require Import String List Ascii Bool Arith NArith Lia.
From Verif Require Import Base Utf8 Lines Ui.
Import ListNotations.

(** What does not change during a session: the targets (their names), [n_cpus]
    (cargo-test-fuzz/src/lib.rs:1228-1233), and two options. *)
Record cfg := {
  k_names : list str;
  k_cpus : nat;
  k_no_ui : bool;
  k_exit_code : bool;
}.
Definition k_n (k : cfg) : nat := List.length (k_names k).

(** cargo-test-fuzz/src/lib.rs:1235 [config.sufficient_cpus]. *)
Definition sufficient (k : cfg) : bool := k_n k <=? k_cpus k.

(** The mutable variables, cargo-test-fuzz/src/lib.rs:1253-1266: [children],
    [n_children], [i_task], the position of [executable_targets_iter], [failed_targets]
    and [i_target_prev].  Simplification: [i_task] is unbounded (the code's [usize]
    would overflow after 2^64 tasks). *)
Record sstate := {
  s_children : list (option child);
  s_n : nat;
  s_task : nat;
  s_iter : nat;
  s_failed : list nat;
  s_prev : nat;
}.

Definition s_init (k : cfg) : sstate :=
  {| s_children := repeat None (k_n k); s_n := 0; s_task := 0; s_iter := 0; s_failed := [];
     s_prev := k_n k |}.

(** What the session does, as seen from outside, in order. *)
Inductive out :=
| OStart (token exe : nat) (first : bool)
    (** a fuzzer for target number [exe] is started and registered under [token];
        [first] is [config.first_run], which selects the corpus as input *)
| OSkip (i : nat)                    (** target [i]'s turn is passed over *)
| OScreen (rows : list str)          (** the display is redrawn *)
| OPoll                              (** wait for events *)
| OHeader (i : nat)                  (** [println!("{target} ---")] *)
| OLine (i : nat) (l : str)          (** a line of target [i]'s fuzzer is printed or buffered *)
| OEnd (i : nat) (success bad : bool)
    (** target [i]'s fuzzer has ended with this status; [bad]: the target is marked as failed *).

(** One event of the poller together with what the operating system answers while it
    is processed. *)
Record event := {
  ev_token : nat;
  ev_reads : list read_result;
  ev_closed : bool;          (** [event.is_read_closed()] *)
  ev_deregister : bool;      (** [deregister] succeeds *)
  ev_wait : option bool;     (** [wait]: the status is success, or an error *)
}.

(** What the outside world answers during one iteration of the loop. *)
Record input := {
  in_size : option (nat * nat);        (** terminal size *)
  in_spawn : bool;                     (** spawning and registering succeed *)
  in_poll : option (list event);       (** [poll] *)
}.

(** How an iteration ends: go on, return from [fuzz], or [exit(1)]. *)
Inductive sresult := Go (s : sstate) | Finished (o : outcome unit) | Exit1.

(** Vector update. *)
Fixpoint upd {A} (l : list A) (i : nat) (x : A) : list A :=
  match l, i with
  | [], _ => []
  | _ :: l', 0 => x :: l'
  | a :: l', S i' => a :: upd l' i' x
  end.

Definition mem (i : nat) (l : list nat) : bool := existsb (Nat.eqb i) l.

(** [HashSet::insert] (std). *)
Definition insert (i : nat) (l : list nat) : list nat := if mem i l then l else l ++ [i].

(** cargo-test-fuzz/src/lib.rs:1360-1366, printing of the lines of one event. *)
Fixpoint show_lines (no_ui : bool) (i prev : nat) (ls : list str) : nat * list out :=
  match ls with
  | [] => (prev, [])
  | l :: ls' =>
      let hd := if no_ui && negb (prev =? i) then [OHeader i] else [] in
      let r := show_lines no_ui i i ls' in
      (fst r, hd ++ OLine i l :: snd r)
  end.

(** cargo-test-fuzz/src/lib.rs:1343-1409, the body of the loop over events. *)
Definition event_step (k : cfg) (s : sstate) (ev : event) : sresult * list out :=
  let i := ev_token ev in
  if k_n k <=? i then (Finished Panic, [])
  else
    match nth_error (s_children s) i with
    | None | Some None => (Finished Panic, [])
    | Some (Some c) =>
        match read_event (ch_data c) (ev_reads ev) with
        | Err e => (Finished (Err e), [])
        | Panic => (Finished Panic, [])
        | Ret (d, ls) =>
            let sh := show_lines (k_no_ui k) i (s_prev s) ls in
            let c' := {| ch_target := ch_target c;
                         ch_buffer := if k_no_ui k then ch_buffer c else ch_buffer c ++ ls;
                         ch_data := d |} in
            if ev_closed ev then
              let cs := upd (s_children s) i None in
              if ev_deregister ev then
                match s_n s with
                | 0 => (Finished Panic, snd sh)
                | S n' =>
                    match ev_wait ev with
                    | None => (Finished (Err (lit "wait")), snd sh)
                    | Some success =>
                        let s' f := {| s_children := cs; s_n := n'; s_task := s_task s; s_iter := s_iter s;
                                       s_failed := f; s_prev := fst sh |} in
                        if negb success then
                          (Go (s' (insert i (s_failed s))), snd sh ++ [OEnd i success true])
                        else if negb (cd_aborted d) then
                          (Go (s' (insert i (s_failed s))), snd sh ++ [OEnd i success true])
                        else if k_exit_code k && negb (cd_time_limit d) then
                          (Exit1, snd sh ++ [OEnd i success false])
                        else (Go (s' (s_failed s)), snd sh ++ [OEnd i success false])
                    end
                end
              else (Finished (Err (lit "Could not deregister receiver")), snd sh)
            else
              (Go {| s_children := upd (s_children s) i (Some c'); s_n := s_n s; s_task := s_task s;
                     s_iter := s_iter s; s_failed := s_failed s; s_prev := fst sh |}, snd sh)
        end
    end.

(** cargo-test-fuzz/src/lib.rs:1343, the loop over the events of one batch. *)
Fixpoint events_steps (k : cfg) (s : sstate) (evs : list event) : sresult * list out :=
  match evs with
  | [] => (Go s, [])
  | ev :: evs' =>
      match event_step k s ev with
      | (Go s', o) => let r := events_steps k s' evs' in (fst r, o ++ snd r)
      | r => r
      end
  end.

Section Step.
  Variable strip : bytes -> bytes.

  (** The target at a position of [executable_targets.iter().cycle()]. *)
  Definition name_at (k : cfg) (e : nat) : str := nth e (k_names k) [].

  (** A fresh child, cargo-test-fuzz/src/lib.rs:1317-1326. *)
  Definition new_child (target : str) : child :=
    {| ch_target := target; ch_buffer := []; ch_data := cd_init |}.

  (** cargo-test-fuzz/src/lib.rs:1276-1410, one iteration of the loop. *)
  Definition step (k : cfg) (s : sstate) (x : input) : sresult * list out :=
    match refresh strip (k_no_ui k) (in_size x) (s_n s) (s_children s) with
    | Err e => (Finished (Err e), [])
    | Panic => (Finished Panic, [])
    | Ret (rows, cs) =>
        let scr := if k_no_ui k then [] else [OScreen rows] in
        if List.length (s_failed s) =? k_n k then
          (Finished (Err (lit "All targets failed to start")), scr)
        else if (s_n s <? k_cpus k) && ((s_task s <? k_n k) || negb (sufficient k)) then
          let e := s_iter s in
          let iter' := if S e =? k_n k then 0 else S e in
          let i := s_task s mod k_n k in
          let skip := {| s_children := cs; s_n := s_n s; s_task := S (s_task s); s_iter := iter';
                         s_failed := s_failed s; s_prev := s_prev s |} in
          if mem i (s_failed s) then (Go skip, scr ++ [OSkip i])
          else
            match nth_error cs i with
            | None => (Finished Panic, scr)
            | Some (Some _) =>
                if sufficient k then (Finished Panic, scr) else (Go skip, scr ++ [OSkip i])
            | Some None =>
                let first := s_task s <? k_n k in
                if first || negb (sufficient k) then
                  if in_spawn x then
                    (Go {| s_children := upd cs i (Some (new_child (name_at k e)));
                           s_n := S (s_n s); s_task := S (s_task s); s_iter := iter';
                           s_failed := s_failed s; s_prev := s_prev s |},
                     scr ++ [OStart i e first])
                  else (Finished (Err (lit "spawn")), scr)
                else (Finished Panic, scr)
            end
        else if s_n s =? 0 then
          if sufficient k && (k_n k <=? s_task s) then (Finished (Ret tt), scr) else (Finished Panic, scr)
        else
          match in_poll x with
          | None => (Finished (Err (lit "`poll` failed")), scr)
          | Some evs =>
              let r := events_steps k {| s_children := cs; s_n := s_n s; s_task := s_task s;
                                         s_iter := s_iter s; s_failed := s_failed s; s_prev := s_prev s |} evs in
              (fst r, scr ++ OPoll :: snd r)
          end
    end.

  (** The loop, as long as inputs are supplied: the final result and everything done. *)
  Fixpoint run (k : cfg) (s : sstate) (xs : list input) : sresult * list out :=
    match xs with
    | [] => (Go s, [])
    | x :: xs' =>
        match step k s x with
        | (Go s', o) => let r := run k s' xs' in (fst r, o ++ snd r)
        | r => r
        end
    end.
End Step.

(** * Specification: reading a session's history *)

Definition is_start (i : nat) (o : out) : bool := match o with OStart j _ _ => j =? i | _ => false end.
Definition is_end (i : nat) (o : out) : bool := match o with OEnd j _ _ => j =? i | _ => false end.

(** How often target [i]'s fuzzer was started, and has ended. *)
Definition n_starts (t : list out) (i : nat) : nat := List.length (filter (is_start i) t).
Definition n_ends (t : list out) (i : nat) : nat := List.length (filter (is_end i) t).

(** How many fuzzers of target [i] are running after history [t]. *)
Definition live (t : list out) (i : nat) : nat := n_starts t i - n_ends t i.

(** How many fuzzers of the first [n] targets are running. *)
Fixpoint live_total (t : list out) (n : nat) : nat :=
  match n with 0 => 0 | S n' => live_total t n' + live t n' end.

(** Target [i] has failed. *)
Definition failed (t : list out) (i : nat) : Prop := exists b, In (OEnd i b true) t.

(** The lines target [i]'s fuzzer has printed since its last start. *)
Definition cur_lines (t : list out) (i : nat) : list str :=
  fold_left (fun acc o => match o with
                          | OStart j _ _ => if j =? i then [] else acc
                          | OLine j l => if j =? i then acc ++ [l] else acc
                          | _ => acc
                          end) t [].

(** The targets whose turn came, in order. *)
Fixpoint visits (t : list out) : list nat :=
  match t with
  | [] => []
  | OStart i _ _ :: t' => i :: visits t'
  | OSkip i :: t' => i :: visits t'
  | _ :: t' => visits t'
  end.

(** What must hold when [o] happens after history [t]. *)
Definition legal_ev (k : cfg) (t : list out) (o : out) : Prop :=
  match o with
  | OStart i e first =>
      e = i /\ i = List.length (visits t) mod k_n k /\ i < k_n k /\ live t i = 0 /\ ~ failed t i /\ live_total t (k_n k) < k_cpus k /\
      (first = true <-> n_starts t i = 0) /\ (k_n k <= k_cpus k -> first = true)
  | OSkip i => i = List.length (visits t) mod k_n k /\ i < k_n k /\ (failed t i \/ live t i = 1) /\ k_cpus k < k_n k /\ n_starts t i <> 0
  | OEnd i success bad =>
      i < k_n k /\ live t i = 1 /\
      bad = negb success || negb (has_line aborted_marker (cur_lines t i))
  | OLine i _ | OHeader i => i < k_n k /\ live t i = 1
  | OPoll | OScreen _ => True
  end.

Definition legal (k : cfg) (tr : list out) : Prop :=
  forall t o t', tr = t ++ o :: t' -> legal_ev k t o.
