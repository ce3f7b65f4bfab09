(** Properties of the parallel fuzzing loop (C44 second half, C52-C58). *)
From Coq Require Import String List Ascii Bool Arith NArith Lia.
From Verif Require Import Base Utf8 Lines Ui Sched SchedInv SchedProofs.
Import ListNotations.

(** ** C52: at every moment of every session *)
Theorem C52_bounded_parallelism : forall strip k xs r o t t',
  run strip k (s_init k) xs = (r, o) -> o = t ++ t' ->
  (forall i, live t i <= 1) /\ live_total t (k_n k) <= k_cpus k.
Proof.
  intros strip k xs r o t t' R ->. apply session_legal in R. apply legal_prefix in R.
  destruct (legal_counts k t R) as [C T]. split; [|exact T]. intros i. unfold live. specialize (C i). lia.
Qed.
Print Assumptions C52_bounded_parallelism.

(** Between two iterations the internal count is exact. *)
Theorem C52_count_exact : forall strip k xs s t,
  run strip k (s_init k) xs = (Go s, t) -> s_n s = live_total t (k_n k).
Proof. intros strip k xs s t R. symmetry. eapply live_total_children. eapply session_inv. exact R. Qed.
Print Assumptions C52_count_exact.

(** Only fuzzers that were started can end, and lines are only shown for running fuzzers. *)
Theorem C52_events_of_running : forall strip k xs r o t e t',
  run strip k (s_init k) xs = (r, o) -> o = t ++ e :: t' ->
  match e with
  | OEnd i _ _ | OLine i _ | OHeader i => i < k_n k /\ live t i = 1
  | OStart i e _ => e = i /\ i < k_n k /\ live t i = 0
  | _ => True
  end.
Proof.
  intros strip k xs r o t e t' R E. apply session_legal in R. specialize (R t e t' E).
  destruct e; cbn [legal_ev] in R; auto; tauto.
Qed.
Print Assumptions C52_events_of_running.

(** A session used in the examples below. *)
Definition ex_cfg (n cpus : nat) : cfg :=
  {| k_names := map (fun i => [ascii_of_nat (97 + i)]) (seq 0 n); k_cpus := cpus; k_no_ui := true; k_exit_code := false |}.
Definition ex_input (evs : list event) : input := {| in_size := None; in_spawn := true; in_poll := Some evs |}.
Definition ex_nl (s : string) : bytes := lit s ++ [LF].
Definition ex_end (i : nat) : event :=
  {| ev_token := i; ev_reads := [RData (ex_nl "+++ Testing aborted programmatically +++"); REof];
     ev_closed := true; ev_deregister := true; ev_wait := Some true |}.
Definition ex_fail (i : nat) : event :=
  {| ev_token := i; ev_reads := [RData (ex_nl "boom"); REof];
     ev_closed := true; ev_deregister := true; ev_wait := Some false |}.
Definition ex_out (i : nat) (s : string) : event :=
  {| ev_token := i; ev_reads := [RData (ex_nl s); RBlock];
     ev_closed := false; ev_deregister := true; ev_wait := Some true |}.

Example C52_example :
  let '(r, o) := run (fun b => b) (ex_cfg 3 2) (s_init (ex_cfg 3 2))
                   (map ex_input [[]; []; [ex_out 1 "hi"; ex_end 0]; []; [ex_end 1]]) in
  o = [OStart 0 0 true; OStart 1 1 true; OPoll; OHeader 1; OLine 1 (lit "hi"); OHeader 0;
       OLine 0 (lit "+++ Testing aborted programmatically +++"); OEnd 0 true false;
       OStart 2 2 true; OPoll; OHeader 1; OLine 1 (lit "+++ Testing aborted programmatically +++");
       OEnd 1 true false]
  /\ live_total o 3 = 1.
Proof. vm_compute. split; reflexivity. Qed.

(** ** C53 *)
Theorem C53_never_panics : forall strip k xs,
  0 < k_cpus k -> streaming strip ->
  (k_no_ui k = false -> Forall is_ascii (k_names k)) ->
  honest strip k xs ->
  fst (run strip k (s_init k) xs) <> Finished Panic.
Proof. intros. now apply run_safe. Qed.
Print Assumptions C53_never_panics.

(** The hypotheses are needed: an event for a target that is not running panics. *)
Theorem C53_unregistered_event_panics : forall k s ev,
  nth_error (s_children s) (ev_token ev) = Some None \/ nth_error (s_children s) (ev_token ev) = None ->
  fst (event_step k s ev) = Finished Panic.
Proof.
  intros k s ev H. unfold event_step. destruct (k_n k <=? ev_token ev); [reflexivity|].
  destruct H as [-> | ->]; reflexivity.
Qed.
Print Assumptions C53_unregistered_event_panics.

Example C53_example :
  honest (fun b => b) (ex_cfg 2 1) (map ex_input [[]; [ex_end 0]; []]).
Proof.
  intros xs1 x xs2 s t E R. split; [discriminate|]. intros evs Ev. repeat split; try discriminate;
    destruct xs1 as [|a xs1]; cbn in E; try (injection E as <- <-; injection Ev as <-; constructor);
    injection E as <- E; (destruct xs1 as [|a xs1]; cbn in E;
      [injection E as <- <-; injection Ev as <-; vm_compute in R; injection R as <- <-;
       repeat constructor; intros []|]);
    injection E as <- E; (destruct xs1 as [|a xs1]; cbn in E;
      [injection E as <- <-; injection Ev as <-; constructor|destruct xs1; discriminate]).
Qed.

(** ** C54 *)
Theorem C54_failed_never_restarted : forall strip k xs r o t i e f t',
  run strip k (s_init k) xs = (r, o) -> o = t ++ OStart i e f :: t' -> ~ failed t i.
Proof.
  intros strip k xs r o t i e f t' R E. apply session_legal in R. specialize (R t _ t' E). cbn [legal_ev] in R. tauto.
Qed.
Print Assumptions C54_failed_never_restarted.

(** A fuzzer's end marks its target as failed exactly if it was unsuccessful or its
    output lacks the abort marker. *)
Theorem C54_failed_exactly : forall strip k xs r o t i success bad t',
  run strip k (s_init k) xs = (r, o) -> o = t ++ OEnd i success bad :: t' ->
  (bad = true <-> success = false \/ ~ exists l, In l (cur_lines t i) /\ occurs aborted_marker l).
Proof.
  intros strip k xs r o t i success bad t' R E. apply session_legal in R. specialize (R t _ t' E). cbn [legal_ev] in R.
  destruct R as (_ & _ & ->). rewrite <- has_line_spec. destruct success, (has_line _ _); simpl; intuition congruence.
Qed.
Print Assumptions C54_failed_exactly.

(** The session gives up only when, and as soon as, every target has failed. *)
Theorem C54_gives_up_only_if_all_failed : forall strip k xs o,
  0 < k_cpus k -> run strip k (s_init k) xs = (Finished (Err (lit "All targets failed to start")), o) ->
  forall i, i < k_n k -> failed o i.
Proof.
  intros strip k xs o Hc R i Hi. apply run_last in R as (xs1 & x & xs2 & s1 & o1 & o2 & -> & R1 & S & ->).
  pose proof (session_inv _ _ _ _ _ R1) as I. destruct (step_fin _ _ _ _ _ _ _ Hc I S) as [_ H].
  destruct (H eq_refl) as [F _]. apply failed_app. left. apply (proj1 (failed_all _ _ _ I) F). exact Hi.
Qed.
Print Assumptions C54_gives_up_only_if_all_failed.

(** Once every target has failed, the next iteration ends the session with an error. *)
Theorem C54_gives_up_when_all_failed : forall strip k xs s t x,
  k_no_ui k = true -> run strip k (s_init k) xs = (Go s, t) ->
  (forall i, i < k_n k -> failed t i) ->
  step strip k s x = (Finished (Err (lit "All targets failed to start")), []).
Proof.
  intros strip k xs s t x U R F. pose proof (session_inv _ _ _ _ _ R) as I.
  apply (failed_all _ _ _ I) in F. unfold step. rewrite U, refresh_no_ui. cbv zeta. rewrite F, Nat.eqb_refl. reflexivity.
Qed.
Print Assumptions C54_gives_up_when_all_failed.

(** A failure leaves the others alone: the next turn of a healthy target that is not
    running starts it, if a cpu is free. *)
Theorem C54_others_served : forall strip k xs s t x j,
  k_no_ui k = true -> 0 < k_cpus k -> k_cpus k < k_n k -> run strip k (s_init k) xs = (Go s, t) ->
  j = List.length (visits t) mod k_n k -> ~ failed t j -> live t j = 0 -> live_total t (k_n k) < k_cpus k ->
  in_spawn x = true ->
  exists s' f, step strip k s x = (Go s', [OStart j j f]).
Proof.
  intros strip k xs s t x j U Hc Hs R Hj Nf Hl Ht Sp. pose proof (session_inv _ _ _ _ _ R) as I.
  assert (Hlt : j < k_n k) by (subst j; apply Nat.mod_upper_bound; lia).
  pose proof (step_cases strip k s x (s_children s) [] t [] I Hc) as SC. rewrite U in SC.
  specialize (SC (refresh_no_ui _ _ _ _) eq_refl).
  rewrite (live_total_children _ _ _ I) in Ht.
  assert (Ev : List.length (visits t) = s_task s) by (rewrite (i_visits _ _ _ I), map_length, seq_length; reflexivity).
  rewrite Ev in Hj.
  assert (Nall : List.length (s_failed s) <> k_n k).
  { intros H. apply Nf. apply (proj1 (failed_all _ _ _ I) H). exact Hlt. }
  assert (Nc : forall c, nth_error (s_children s) j <> Some (Some c)).
  { intros c E. pose proof (live_children _ _ _ _ I Hlt) as L. rewrite E in L. lia. }
  destruct (step strip k s x) as [r o] eqn:E. cbn [fst snd] in SC.
  assert (Si : sufficient k = false) by (apply Nat.leb_gt; lia).
  inversion SC; subst; try congruence; try lia.
  - exfalso. match goal with H : In _ (s_failed s) \/ _ |- _ => destruct H as [H4|[c H4]] end; [apply Nf, (i_failed _ _ _ I), H4|eapply Nc; exact H4].
  - pose proof (step_inv _ _ _ _ _ _ _ I E) as [L _]. apply legal_snoc in L as [_ (He & _)]. subst e. cbn [app]. eauto.
Qed.
Print Assumptions C54_others_served.

Example C54_example :
  let '(r, o) := run (fun b => b) (ex_cfg 2 2) (s_init (ex_cfg 2 2))
                   (map ex_input [[]; []; [ex_fail 0; ex_fail 1]; []]) in
  r = Finished (Err (lit "All targets failed to start")) /\ failed o 0 /\ failed o 1.
Proof.
  vm_compute. split; [reflexivity|]. split; [exists false|exists false]; simpl; auto 20.
Qed.

(** ** C55 *)
Theorem C55_first_run_exact : forall strip k xs r o t i e first t',
  run strip k (s_init k) xs = (r, o) -> o = t ++ OStart i e first :: t' ->
  (first = true <-> forall e' f', ~ In (OStart i e' f') t).
Proof.
  intros strip k xs r o t i e first t' R E. apply session_legal in R. specialize (R t _ t' E). cbn [legal_ev] in R.
  destruct R as (_ & _ & _ & _ & _ & _ & F & _). rewrite F. unfold n_starts. split.
  - intros L e' f' H. apply length_zero_iff_nil in L. assert (P : In (OStart i e' f') (filter (is_start i) t)).
    { apply filter_In. split; [exact H|]. simpl. apply Nat.eqb_refl. }
    rewrite L in P. destruct P.
  - intros H. apply length_zero_iff_nil. destruct (filter (is_start i) t) as [|o0 l] eqn:Ef; [reflexivity|].
    assert (P : In o0 (filter (is_start i) t)) by (rewrite Ef; now left). apply filter_In in P as [P Q].
    destruct o0; try discriminate. simpl in Q. apply Nat.eqb_eq in Q. subst. destruct (H _ _ P).
Qed.
Print Assumptions C55_first_run_exact.

Example C55_example :
  let '(r, o) := run (fun b => b) (ex_cfg 2 1) (s_init (ex_cfg 2 1))
                   (map ex_input [[]; [ex_end 0]; []; [ex_end 1]; []]) in
  filter (fun e => match e with OStart _ _ _ => true | _ => false end) o
  = [OStart 0 0 true; OStart 1 1 true; OStart 0 0 false].
Proof. vm_compute. reflexivity. Qed.

(** ** C56 *)
(** The turns are cyclic, ... *)
Theorem C56_cyclic : forall strip k xs r o,
  run strip k (s_init k) xs = (r, o) ->
  visits o = map (fun a => a mod k_n k) (seq 0 (List.length (visits o))).
Proof. intros strip k xs r o R. apply session_legal in R. now apply legal_visits. Qed.
Print Assumptions C56_cyclic.

(** ... a turn is passed over only for a failed or running target, ... *)
Theorem C56_skip_only_if : forall strip k xs r o t i t',
  run strip k (s_init k) xs = (r, o) -> o = t ++ OSkip i :: t' -> failed t i \/ live t i = 1.
Proof.
  intros strip k xs r o t i t' R E. apply session_legal in R. specialize (R t _ t' E). cbn [legal_ev] in R. tauto.
Qed.
Print Assumptions C56_skip_only_if.

(** ... hence between two starts of a target every other target was started, or its
    turn came while it had failed or was running. *)
Theorem C56_fair : forall strip k xs r o t1 i e f t2 e' f' t3 j,
  run strip k (s_init k) xs = (r, o) ->
  o = t1 ++ OStart i e f :: t2 ++ OStart i e' f' :: t3 -> j < k_n k -> j <> i ->
  (exists e'' f'', In (OStart j e'' f'') t2) \/
  (exists a b, t2 = a ++ b /\ (failed (t1 ++ OStart i e f :: a) j \/ live (t1 ++ OStart i e f :: a) j = 1)).
Proof.
  intros strip k xs r o t1 i e f t2 e' f' t3 j R E Hj Hne. apply session_legal in R. rewrite E in R.
  pose proof (visits_between k t1 i e f t2 e' f' t3 j R Hj Hne) as V.
  apply in_visits in V as (a & o0 & b & -> & [->|(e'' & f'' & ->)]).
  - right. exists a, (OSkip j :: b). split; [reflexivity|].
    assert (R' : legal k ((t1 ++ OStart i e f :: a) ++ OSkip j :: (b ++ OStart i e' f' :: t3))).
    { rewrite <- app_assoc. cbn [app]. rewrite <- app_assoc in R. exact R. }
    specialize (R' _ _ _ eq_refl). cbn [legal_ev] in R'. tauto.
  - left. exists e'', f''. apply in_or_app. right. now left.
Qed.
Print Assumptions C56_fair.

Example C56_example :
  let '(r, o) := run (fun b => b) (ex_cfg 3 2) (s_init (ex_cfg 3 2))
                   (map ex_input [[]; []; [ex_end 1]; []; [ex_end 2]; []; []; [ex_end 1]; []]) in
  visits o = [0; 1; 2; 0; 1; 2] /\ In (OSkip 0) o.
Proof. vm_compute. split; [reflexivity|]. auto 20. Qed.

(** ** C57 *)
(** As long as there are at least as many healthy targets as cpus, the loop waits for
    events at least once in any [n + 1] iterations. *)
Theorem C57_progress : forall strip k xs s t healthy ys s' o,
  0 < k_cpus k -> run strip k (s_init k) xs = (Go s, t) ->
  NoDup healthy -> List.length healthy = k_cpus k -> (forall i, In i healthy -> i < k_n k /\ ~ failed t i) ->
  List.length ys = S (k_n k) -> run strip k s ys = (Go s', o) -> In OPoll o.
Proof. intros. eapply progress; eassumption. Qed.
Print Assumptions C57_progress.

(** Otherwise, once every healthy target is running and a cpu is free, it spins
    forever: whatever happens, no event is ever waited for and nothing is started. *)
Theorem C57_livelock : forall strip k xs s t ys,
  k_no_ui k = true -> k_cpus k < k_n k -> run strip k (s_init k) xs = (Go s, t) ->
  (forall i, i < k_n k -> failed t i \/ live t i = 1) -> (exists i, i < k_n k /\ ~ failed t i) ->
  live_total t (k_n k) < k_cpus k ->
  exists s' turns, run strip k s ys = (Go s', map OSkip turns) /\ List.length turns = List.length ys.
Proof.
  intros strip k xs s t ys U Hs R A (j & Hj & Nf) Ht. pose proof (session_inv _ _ _ _ _ R) as I.
  apply (stuck_run strip k U) with (t := t); [apply Nat.leb_gt; lia|exact I|]. split; [|split].
  - intros i Hi. destruct (A i Hi) as [F|L]; [left; now apply (i_failed _ _ _ I)|right].
    rewrite (live_children _ _ _ _ I Hi) in L. destruct (nth_error (s_children s) i) as [[c|]|]; [eauto|discriminate..].
  - rewrite <- (live_total_children _ _ _ I). exact Ht.
  - intros H. apply Nf. apply (proj1 (failed_all _ _ _ I) H). exact Hj.
Qed.
Print Assumptions C57_livelock.

(** Such states are reachable: three targets, two cpus, two failures. *)
Theorem C57_always_progress_refuted : exists k xs s t,
  0 < k_cpus k /\ run (fun b => b) k (s_init k) xs = (Go s, t) /\ live t 2 = 1 /\
  forall ys, exists s' turns,
    run (fun b => b) k s ys = (Go s', map OSkip turns) /\ List.length turns = List.length ys.
Proof.
  set (xs := map ex_input [[]; []; [ex_fail 0]; []; [ex_fail 1]]).
  destruct (run (fun b => b) (ex_cfg 3 2) (s_init (ex_cfg 3 2)) xs) as [[s| |] t] eqn:R; try (vm_compute in R; discriminate).
  exists (ex_cfg 3 2), xs, s, t.
  assert (T : t = [OStart 0 0 true; OStart 1 1 true; OPoll; OHeader 0; OLine 0 (lit "boom"); OEnd 0 false true;
                   OStart 2 2 true; OPoll; OHeader 1; OLine 1 (lit "boom"); OEnd 1 false true]).
  { vm_compute in R. injection R as _ <-. reflexivity. }
  split; [cbn; lia|]. split; [exact R|]. split; [rewrite T; reflexivity|].
  intros ys. eapply C57_livelock; [reflexivity|cbn; lia|exact R| | |].
  - intros i Hi. cbn in Hi. rewrite T. destruct i as [|[|[|i]]]; [left|left|right; reflexivity|lia];
      exists false; simpl; auto 20.
  - exists 2. split; [cbn; lia|]. rewrite T. intros [b H]. simpl in H. intuition discriminate.
  - rewrite T. cbn. lia.
Qed.
Print Assumptions C57_always_progress_refuted.

Example C57_example :
  let k := ex_cfg 3 2 in
  snd (run (fun b => b) k (s_init k) (map ex_input [[]; []; [ex_fail 0]; []; [ex_fail 1]; [ex_end 2]; [ex_end 2]; []; []]))
  = [OStart 0 0 true; OStart 1 1 true; OPoll; OHeader 0; OLine 0 (lit "boom"); OEnd 0 false true;
     OStart 2 2 true; OPoll; OHeader 1; OLine 1 (lit "boom"); OEnd 1 false true;
     OSkip 0; OSkip 1; OSkip 2; OSkip 0].
Proof. vm_compute. reflexivity. Qed.

(** ** C58 *)
(** With enough cpus no target is ever started twice or passed over. *)
Theorem C58_started_at_most_once : forall strip k xs r o,
  k_n k <= k_cpus k -> run strip k (s_init k) xs = (r, o) ->
  (forall i, n_starts o i <= 1) /\ (forall i, ~ In (OSkip i) o).
Proof.
  intros strip k xs r o Hs R. apply session_legal in R. split.
  - clear xs r. induction o as [|e o IH] using rev_ind; intros i; [unfold n_starts; simpl; lia|].
    apply legal_snoc in R as [L E]. specialize (IH L). rewrite n_starts_app, n_starts_1.
    destruct e; cbn [is_start]; try (rewrite Nat.add_0_r; apply IH).
    destruct (token =? i) eqn:D; [|rewrite Nat.add_0_r; apply IH]. apply Nat.eqb_eq in D. subst.
    cbn [legal_ev] in E. destruct E as (_ & _ & _ & _ & _ & _ & F & G). specialize (G Hs). apply F in G. lia.
  - intros i H. apply in_split in H as (a & b & ->). specialize (R _ _ _ eq_refl). cbn [legal_ev] in R. lia.
Qed.
Print Assumptions C58_started_at_most_once.

(** A successful session has started and finished every target exactly once, and not
    all targets have failed. *)
Theorem C58_success_means_all_done : forall strip k xs o,
  0 < k_cpus k -> run strip k (s_init k) xs = (Finished (Ret tt), o) ->
  k_n k <= k_cpus k /\ (forall i, i < k_n k -> n_starts o i = 1 /\ n_ends o i = 1) /\
  exists i, i < k_n k /\ ~ failed o i.
Proof.
  intros strip k xs o Hc R. apply run_last in R as (xs1 & x & xs2 & s1 & o1 & o2 & -> & R1 & S & ->).
  pose proof (session_inv _ _ _ _ _ R1) as I. destruct (step_fin _ _ _ _ _ _ _ Hc I S) as [H _].
  destruct (H eq_refl) as (F & N & Su & T & Q). apply Nat.leb_le in Su. split; [exact Su|].
  destruct (i_suff _ _ _ I Su) as [B1 B2]. split.
  - intros i Hi. destruct (quiet_facts _ o1 i Q) as (A1 & A2 & _). rewrite A1, A2.
    pose proof (i_task _ _ _ I i Hi) as Ti. specialize (B2 i).
    assert (n_starts o1 i = 1) as E by lia. split; [exact E|].
    pose proof (live_children _ _ _ _ I Hi) as L.
    assert (Z : live o1 i = 0).
    { rewrite L. destruct (nth_error (s_children s1) i) as [[c|]|] eqn:Ec; auto.
      rewrite (i_n _ _ _ I), (n_running_none _ _ _ _ Ec) in N. discriminate. }
    unfold live in Z. destruct (legal_counts _ _ (i_legal _ _ _ I)) as [C _]. specialize (C i). lia.
  - destruct (Exists_dec (fun i => ~ In i (s_failed s1)) (seq 0 (k_n k))) as [D|D].
    + intros i. destruct (in_dec Nat.eq_dec i (s_failed s1)); auto.
    + apply Exists_exists in D as (i & Hi & Hf). exists i. apply in_seq in Hi. split; [lia|].
      destruct (quiet_facts _ o1 i Q) as (_ & _ & _ & A4 & _). rewrite A4, <- (i_failed _ _ _ I). exact Hf.
    + exfalso. apply F. apply (failed_all _ _ _ I). intros i Hi. apply (i_failed _ _ _ I).
      destruct (in_dec Nat.eq_dec i (s_failed s1)) as [D'|D']; [exact D'|]. exfalso. apply D.
      apply Exists_exists. exists i. split; [apply in_seq; lia|exact D'].
Qed.
Print Assumptions C58_success_means_all_done.

(** Conversely, as soon as every target's fuzzer has ended and not all failed, the
    session ends successfully. *)
Theorem C58_ends_when_all_done : forall strip k xs s t x,
  k_no_ui k = true -> 0 < k_cpus k -> k_n k <= k_cpus k -> run strip k (s_init k) xs = (Go s, t) ->
  (forall i, i < k_n k -> n_starts t i = 1 /\ n_ends t i = 1) -> (exists i, i < k_n k /\ ~ failed t i) ->
  step strip k s x = (Finished (Ret tt), []).
Proof.
  intros strip k xs s t x U Hc Hs R A (j & Hj & Nf). pose proof (session_inv _ _ _ _ _ R) as I.
  assert (N : s_n s = 0).
  { rewrite <- (live_total_children _ _ _ I). revert A. generalize (k_n k) as n. induction n as [|n IH]; intros A; [reflexivity|].
    cbn [live_total]. rewrite IH by (intros i Hi; apply A; lia). unfold live. destruct (A n) as [-> ->]; lia. }
  assert (T : k_n k <= s_task s).
  { destruct (le_lt_dec (k_n k) (s_task s)) as [H|H]; [exact H|]. exfalso.
    pose proof (proj2 (i_task _ _ _ I (s_task s) H) (le_n _)) as Z. destruct (A _ H). lia. }
  assert (F : List.length (s_failed s) <> k_n k).
  { intros H. apply Nf. apply (proj1 (failed_all _ _ _ I) H). exact Hj. }
  unfold step. rewrite U, refresh_no_ui. cbv zeta. apply Nat.eqb_neq in F. rewrite F.
  apply Nat.leb_le in Hs as Su. unfold sufficient. rewrite Su.
  assert (H1 : (s_task s <? k_n k) = false) by (apply Nat.ltb_ge; exact T). rewrite H1. cbn [negb orb]. rewrite andb_false_r.
  rewrite N. cbn [Nat.eqb]. apply Nat.leb_le in T. rewrite T. reflexivity.
Qed.
Print Assumptions C58_ends_when_all_done.

(** While some target has not been started, a free cpu is used for it at once. *)
Theorem C58_starts_without_waiting : forall strip k xs s t x,
  k_no_ui k = true -> 0 < k_cpus k -> k_n k <= k_cpus k -> run strip k (s_init k) xs = (Go s, t) ->
  (exists i, i < k_n k /\ n_starts t i = 0) -> (exists i, i < k_n k /\ ~ failed t i) -> in_spawn x = true ->
  exists s' i, step strip k s x = (Go s', [OStart i i true]).
Proof.
  intros strip k xs s t x U Hc Hs R (i & Hi & Z) (j & Hj & Nf) Sp. pose proof (session_inv _ _ _ _ _ R) as I.
  apply (i_task _ _ _ I i Hi) in Z.
  assert (F : List.length (s_failed s) <> k_n k).
  { intros H. apply Nf. apply (proj1 (failed_all _ _ _ I) H). exact Hj. }
  assert (Hts : s_task s < k_n k) by lia.
  assert (Hn : s_n s < k_cpus k).
  { (* a target that has not been started is not running *)
    rewrite (i_n _ _ _ I). pose proof (none_idx_count _ (s_children s) 0) as C. rewrite (i_len _ _ _ I) in C.
    assert (E : nth_error (s_children s) (s_task s) = Some None).
    { destruct (nth_error (s_children s) (s_task s)) as [[c|]|] eqn:E; [|reflexivity|].
      - pose proof (i_children _ _ _ I _ _ E) as (C1 & _). pose proof (proj2 (i_task _ _ _ I _ Hts) (le_n _)). lia.
      - apply nth_error_None in E. rewrite (i_len _ _ _ I) in E. lia. }
    assert (n_running (s_children s) < List.length (s_children s)); [|rewrite (i_len _ _ _ I) in H; lia].
    clear - E. revert E. generalize (s_task s). induction (s_children s) as [|[c|] l IH]; intros [|m] E; simpl in *; try discriminate.
    - apply IH in E. lia.
    - pose proof (n_running_le _ l). lia.
    - pose proof (n_running_le _ l). lia. }
  pose proof (step_cases strip k s x (s_children s) [] t [] I Hc) as SC. rewrite U in SC.
  specialize (SC (refresh_no_ui _ _ _ _) eq_refl).
  destruct (step strip k s x) as [r o] eqn:E. cbn [fst snd] in SC.
  assert (Si : sufficient k = true) by (apply Nat.leb_le; lia).
  inversion SC; subst; try congruence; try lia.
  pose proof (step_inv _ _ _ _ _ _ _ I E) as [L _]. apply legal_snoc in L as [_ (He & _ & _ & _ & _ & _ & _ & Hf)].
  rewrite (Hf Hs) in *. subst e. cbn [app]. eauto.
Qed.
Print Assumptions C58_starts_without_waiting.

Example C58_example :
  let k := ex_cfg 2 3 in
  run (fun b => b) k (s_init k) (map ex_input [[]; []; [ex_end 1]; [ex_fail 0]; []])
  = (Finished (Ret tt),
     [OStart 0 0 true; OStart 1 1 true; OPoll; OHeader 1; OLine 1 (lit "+++ Testing aborted programmatically +++");
      OEnd 1 true false; OPoll; OHeader 0; OLine 0 (lit "boom"); OEnd 0 false true]).
Proof. vm_compute. reflexivity. Qed.

(** ** C44, parallel fuzzing: exit code 1 *)
(** With --exit-code the process exits with 1 exactly at the first regular end of a
    fuzzer whose output does not say that its time limit was reached. *)
Theorem C44_exit_code_1_exact : forall strip k xs r o,
  run strip k (s_init k) xs = (r, o) ->
  (r = Exit1 <-> exists t i t', o = t ++ OEnd i true false :: t' /\ k_exit_code k = true /\
                   ~ exists l, In l (cur_lines t i) /\ occurs time_limit_marker l) /\
  (r = Exit1 -> exists t i, o = t ++ [OEnd i true false] /\
     forall a j b, t = a ++ OEnd j true false :: b -> exists l, In l (cur_lines a j) /\ occurs time_limit_marker l).
Proof.
  intros strip k xs r o R. pose proof (run_exits strip k xs (s_init k) [] (inv_init k)) as X. rewrite R in X. cbn [fst snd] in X.
  split; [split|].
  - intros ->. destruct X as (o1 & i & -> & E & T & C). exists o1, i, []. split; [reflexivity|]. split; [exact E|].
    rewrite <- has_line_spec. cbn [app] in T. congruence.
  - intros (t & i & t' & E & Ex & N). destruct r as [s|oc|]; [| |reflexivity]; exfalso; cbn [exits_properly] in X;
      specialize (X t _ t' E Ex); apply N, has_line_spec; exact X.
  - intros ->. destruct X as (o1 & i & -> & E & T & C). exists o1, i. split; [reflexivity|].
    intros a j b Hb. apply has_line_spec. exact (C a _ b Hb E).
Qed.
Print Assumptions C44_exit_code_1_exact.

Example C44_exit_example :
  let k := {| k_names := [lit "a"; lit "b"]; k_cpus := 2; k_no_ui := true; k_exit_code := true |} in
  fst (run (fun b => b) k (s_init k)
    (map ex_input [[]; []; [{| ev_token := 0; ev_reads := [RData (ex_nl "Time limit was reached" ++ ex_nl "+++ Testing aborted programmatically +++")];
                               ev_closed := true; ev_deregister := true; ev_wait := Some true |}]; [ex_end 1]; []])) = Exit1.
Proof. vm_compute. reflexivity. Qed.
