(** Consequences of the scheduler's invariant. *)
From Coq Require Import String List Ascii Bool Arith NArith Lia.
From Verif Require Import Base Utf8 Lines Ui Sched SchedInv.
Import ListNotations.

(** ** Counting *)

Lemma n_starts_1 o i : n_starts [o] i = if is_start i o then 1 else 0.
Proof. unfold n_starts. simpl. destruct (is_start i o); reflexivity. Qed.
Lemma n_ends_1 o i : n_ends [o] i = if is_end i o then 1 else 0.
Proof. unfold n_ends. simpl. destruct (is_end i o); reflexivity. Qed.

Lemma live_total_start t n i e f :
  n_starts t i = n_ends t i -> live_total (t ++ [OStart i e f]) n = live_total t n + (if i <? n then 1 else 0).
Proof.
  intros E. induction n as [|n IH]; [reflexivity|]. cbn [live_total]. rewrite IH.
  assert (L : live (t ++ [OStart i e f]) n = live t n + (if i =? n then 1 else 0)).
  { unfold live. rewrite n_starts_app, n_ends_app. unfold n_starts at 2, n_ends at 2. simpl.
    destruct (i =? n) eqn:D; simpl; [apply Nat.eqb_eq in D; subst; lia|lia]. }
  rewrite L. destruct (i <? n) eqn:A, (i =? n) eqn:B, (i <? S n) eqn:C;
    rewrite ?Nat.ltb_lt, ?Nat.ltb_ge, ?Nat.eqb_eq, ?Nat.eqb_neq in *; lia.
Qed.

Lemma live_total_end t n i b c : live_total (t ++ [OEnd i b c]) n <= live_total t n.
Proof.
  induction n as [|n IH]; [simpl; lia|]. cbn [live_total].
  assert (L : live (t ++ [OEnd i b c]) n <= live t n).
  { unfold live. rewrite n_starts_app, n_ends_app. unfold n_starts at 2. simpl. lia. }
  lia.
Qed.

Lemma live_total_other t n o : (forall i, is_start i o = false /\ is_end i o = false) ->
  live_total (t ++ [o]) n = live_total t n.
Proof.
  intros H. induction n as [|n IH]; [reflexivity|]. cbn [live_total]. rewrite IH. f_equal.
  unfold live. rewrite n_starts_app, n_ends_app. unfold n_starts at 2, n_ends at 2. cbn [filter].
  destruct (H n) as [-> ->]. cbn. lia.
Qed.

Lemma legal_prefix k a b : legal k (a ++ b) -> legal k a.
Proof.
  intros H t o t' ->. apply (H t o (t' ++ b)). rewrite <- app_assoc. reflexivity.
Qed.

Lemma legal_counts k t : legal k t ->
  (forall i, n_ends t i <= n_starts t i <= S (n_ends t i)) /\ live_total t (k_n k) <= k_cpus k.
Proof.
  induction t as [|o t IH] using rev_ind; intros L.
  - split; [intros i; unfold n_ends, n_starts; simpl; lia|].
    assert (G : forall n, live_total [] n = 0) by (induction n; simpl; [|rewrite IHn]; reflexivity). rewrite G. lia.
  - apply legal_snoc in L as [L E]. destruct (IH L) as [C T]. destruct o; cbn [legal_ev] in E.
    1: { destruct E as (_ & _ & Hi & Hl & _ & Hc & _). unfold live in Hl. pose proof (C token). split.
      - intros i. rewrite n_starts_app, n_ends_app. rewrite n_starts_1, n_ends_1. cbn [is_start is_end].
        destruct (token =? i) eqn:D; simpl; [apply Nat.eqb_eq in D; subst|]; specialize (C i); lia.
      - rewrite live_total_start by lia. destruct (token <? k_n k); lia. }
    6: { destruct E as (Hi & Hl & _). unfold live in Hl. split.
      - intros j. rewrite n_starts_app, n_ends_app. rewrite n_starts_1, n_ends_1. cbn [is_start is_end].
        destruct (i =? j) eqn:D; simpl; [apply Nat.eqb_eq in D; subst|]; specialize (C j); lia.
      - pose proof (live_total_end t (k_n k) i success bad). lia. }
    all: split; [intros j; rewrite n_starts_app, n_ends_app; rewrite n_starts_1, n_ends_1; cbn [is_start is_end]; specialize (C j); lia
                |rewrite live_total_other; [exact T|intros; split; reflexivity]].
Qed.

(** ** Turns *)

Lemma in_visits t j : In j (visits t) ->
  exists a o b, t = a ++ o :: b /\ (o = OSkip j \/ exists e f, o = OStart j e f).
Proof.
  induction t as [|o t IH]; [intros []|]. intros H.
  assert (K : In j (visits t) -> exists a o' b, o :: t = a ++ o' :: b /\ (o' = OSkip j \/ exists e f, o' = OStart j e f)).
  { intros I. destruct (IH I) as (a & o' & b & -> & P). exists (o :: a), o', b. auto. }
  destruct o; cbn [visits] in H; auto.
  - destruct H as [->|H]; [|auto]. exists [], (OStart j exe first), t. split; [reflexivity|eauto].
  - destruct H as [->|H]; [|auto]. exists [], (OSkip j), t. auto.
Qed.

Lemma legal_visits k t : legal k t -> visits t = map (fun a => a mod k_n k) (seq 0 (List.length (visits t))).
Proof.
  induction t as [|o t IH] using rev_ind; intros L; [reflexivity|].
  apply legal_snoc in L as [L E]. specialize (IH L). rewrite visits_app.
  destruct o; cbn [visits]; rewrite ?app_nil_r; auto;
    rewrite app_length; cbn [List.length]; rewrite Nat.add_1_r, seq_S, map_app; cbn [map];
    rewrite <- IH; f_equal; cbn [legal_ev] in E; f_equal; apply E.
Qed.

Lemma app_inv_len A (a b x y : list A) : a ++ x = b ++ y -> List.length a = List.length b -> a = b /\ x = y.
Proof.
  revert b. induction a as [|c a IH]; intros [|d b] E L; simpl in *; try discriminate; auto.
  injection E as -> E. destruct (IH b E) as [-> ->]; auto.
Qed.

Lemma visits_between k t1 i e f t2 e' f' t3 j :
  legal k (t1 ++ OStart i e f :: t2 ++ OStart i e' f' :: t3) -> j < k_n k -> j <> i -> In j (visits t2).
Proof.
  intros L Hj Hne.
  pose proof (L t1 _ _ eq_refl) as (_ & P & Hi & _).
  assert (L2 : legal k ((t1 ++ OStart i e f :: t2) ++ OStart i e' f' :: t3)) by (rewrite <- app_assoc; exact L).
  pose proof (L2 _ _ _ eq_refl) as (_ & Q & _).
  apply legal_prefix in L2. pose proof (legal_visits k _ L2) as V.
  rewrite visits_app in V, Q. cbn [visits] in V, Q. rewrite app_length in V, Q. cbn [List.length] in V, Q.
  set (p := List.length (visits t1)) in *. set (m := List.length (visits t2)) in *. set (n := k_n k) in *.
  replace (p + S m) with (p + (1 + m)) in V by lia. rewrite seq_app, map_app in V.
  assert (V2 : visits t2 = map (fun a => a mod n) (seq (S p) m)).
  { apply app_inv_len in V as [_ V]; [|rewrite map_length, seq_length; reflexivity].
    cbn [seq map plus] in V. congruence. }
  rewrite V2. apply in_map_iff.
  (* a number congruent to j strictly between p and p + S m *)
  assert (Hm : n <= S m).
  { destruct (le_lt_dec n (S m)) as [H|H]; [exact H|]. exfalso.
    assert (E : (p + S m) mod n = p mod n) by congruence.
    rewrite (Nat.div_mod p n) in E at 1 by lia.
    replace (n * (p / n) + p mod n + S m) with (p mod n + S m + (p / n) * n) in E by lia.
    rewrite Nat.mod_add in E by lia. pose proof (Nat.mod_upper_bound p n).
    destruct (le_lt_dec n (p mod n + S m)) as [G|G].
    - replace (p mod n + S m) with ((p mod n + S m - n) + 1 * n) in E by lia.
      rewrite Nat.mod_add in E by lia. rewrite Nat.mod_small in E by lia. lia.
    - rewrite Nat.mod_small in E by exact G. lia. }
  assert (Hd : exists d, 0 < d < n /\ (p + d) mod n = j).
  { destruct (le_lt_dec j i) as [H|H].
    - exists (n + j - i). split; [lia|].
      rewrite (Nat.div_mod p n) at 1 by lia. rewrite <- P.
      replace (n * (p / n) + i + (n + j - i)) with (j + (p / n + 1) * n) by lia.
      rewrite Nat.mod_add by lia. apply Nat.mod_small. exact Hj.
    - exists (j - i). split; [lia|].
      rewrite (Nat.div_mod p n) at 1 by lia. rewrite <- P.
      replace (n * (p / n) + i + (j - i)) with (j + (p / n) * n) by lia.
      rewrite Nat.mod_add by lia. apply Nat.mod_small. exact Hj. }
  destruct Hd as (d & Hd & Ed). exists (p + d). split; [exact Ed|]. apply in_seq. lia.
Qed.

Lemma same_some cs cs' i c : Forall2 same_child cs cs' -> nth_error cs' i = Some (Some c) ->
  exists c0, nth_error cs i = Some (Some c0).
Proof.
  intros F. revert i. induction F as [|a b l l' S F IH]; intros [|i] H; simpl in *; try discriminate.
  - injection H as ->. destruct a; [eauto|contradiction].
  - now apply IH.
Qed.

Lemma same_some_fwd cs cs' i c : Forall2 same_child cs cs' -> nth_error cs i = Some (Some c) ->
  exists c0, nth_error cs' i = Some (Some c0).
Proof.
  intros F. revert i. induction F as [|a b l l' S F IH]; intros [|i] H; simpl in *; try discriminate.
  - injection H as ->. destruct b; [eauto|contradiction].
  - now apply IH.
Qed.

(** ** What one iteration can do *)

Definition all_failed_msg : str := lit "All targets failed to start".

Section Cases.
  Variable strip : bytes -> bytes.
  Variables (k : cfg) (s : sstate) (x : input) (cs : list (option child)) (scr : list out).

  Inductive step_case : sresult -> list out -> Prop :=
  | SC_all : List.length (s_failed s) = k_n k -> step_case (Finished (Err all_failed_msg)) scr
  | SC_skip i iter : List.length (s_failed s) <> k_n k -> i = s_task s mod k_n k -> s_n s < k_cpus k -> sufficient k = false ->
      (In i (s_failed s) \/ exists c, nth_error cs i = Some (Some c)) ->
      step_case (Go {| s_children := cs; s_n := s_n s; s_task := S (s_task s); s_iter := iter;
                       s_failed := s_failed s; s_prev := s_prev s |}) (scr ++ [OSkip i])
  | SC_start i e f iter : List.length (s_failed s) <> k_n k -> i = s_task s mod k_n k -> s_n s < k_cpus k ->
      ~ In i (s_failed s) -> nth_error cs i = Some None -> in_spawn x = true ->
      step_case (Go {| s_children := upd cs i (Some (new_child (name_at k e))); s_n := S (s_n s);
                       s_task := S (s_task s); s_iter := iter; s_failed := s_failed s; s_prev := s_prev s |})
                (scr ++ [OStart i e f])
  | SC_spawn_err : List.length (s_failed s) <> k_n k -> in_spawn x = false -> step_case (Finished (Err (lit "spawn"))) scr
  | SC_done : List.length (s_failed s) <> k_n k -> s_n s = 0 -> sufficient k = true -> k_n k <= s_task s ->
      step_case (Finished (Ret tt)) scr
  | SC_poll_err : List.length (s_failed s) <> k_n k -> s_n s <> 0 -> (s_n s = k_cpus k \/ sufficient k = true /\ k_n k <= s_task s) ->
      in_poll x = None -> step_case (Finished (Err (lit "`poll` failed"))) scr
  | SC_poll evs : List.length (s_failed s) <> k_n k -> s_n s <> 0 -> (s_n s = k_cpus k \/ sufficient k = true /\ k_n k <= s_task s) ->
      in_poll x = Some evs ->
      step_case (fst (events_steps k {| s_children := cs; s_n := s_n s; s_task := s_task s;
                          s_iter := s_iter s; s_failed := s_failed s; s_prev := s_prev s |} evs))
        (scr ++ OPoll :: snd (events_steps k {| s_children := cs; s_n := s_n s; s_task := s_task s;
                          s_iter := s_iter s; s_failed := s_failed s; s_prev := s_prev s |} evs)).

  Lemma step_cases t rows :
    inv k s t -> 0 < k_cpus k ->
    refresh strip (k_no_ui k) (in_size x) (s_n s) (s_children s) = Ret (rows, cs) ->
    scr = (if k_no_ui k then [] else [OScreen rows]) ->
    step_case (fst (step strip k s x)) (snd (step strip k s x)).
  Proof.
    intros I Hcpu R Escr. unfold step. rewrite R. cbv zeta. rewrite <- Escr.
    pose proof (refresh_same _ _ _ _ _ _ _ R) as F.
    destruct (List.length (s_failed s) =? k_n k) eqn:Ef.
    { apply Nat.eqb_eq in Ef. cbn [fst snd]. now constructor. }
    apply Nat.eqb_neq in Ef.
    assert (Hn : 0 < k_n k).
    { destruct (k_n k) eqn:En; [|lia]. exfalso. apply Ef. destruct (s_failed s) as [|a l] eqn:El; [reflexivity|].
      assert (a < 0); [|lia]. rewrite <- En. apply (i_failed_lt _ _ _ I). rewrite El. now left. }
    assert (Lcs : List.length cs = k_n k) by (apply Forall2_len in F; rewrite <- F; apply (i_len _ _ _ I)).
    set (i := s_task s mod k_n k).
    assert (Hi : i < k_n k) by (apply Nat.mod_upper_bound; lia).
    assert (Hns : s_task s < k_n k -> n_starts t i = 0).
    { intros H. apply (i_task _ _ _ I i Hi). unfold i. rewrite Nat.mod_small by exact H. lia. }
    assert (Hf : In i (s_failed s) -> k_n k <= s_task s).
    { intros H. destruct (le_lt_dec (k_n k) (s_task s)) as [G|G]; [exact G|]. exfalso. specialize (Hns G).
      pose proof (i_children _ _ _ I i _ (i_failed_none _ _ _ I i H)) as C. cbn in C.
      apply (i_failed _ _ _ I) in H. apply failed_ends in H. lia. }
    assert (Hc : forall c, nth_error cs i = Some (Some c) -> k_n k <= s_task s).
    { intros c H. destruct (le_lt_dec (k_n k) (s_task s)) as [G|G]; [exact G|]. exfalso. specialize (Hns G).
      pose proof (same_some _ _ _ _ F H) as T.
      destruct T as [c0 H0]. pose proof (i_children _ _ _ I i _ H0) as (C & _). lia. }
    destruct ((s_n s <? k_cpus k) && ((s_task s <? k_n k) || negb (sufficient k))) eqn:Ew.
    - apply andb_true_iff in Ew as [Ew1 Ew2]. apply Nat.ltb_lt in Ew1.
      assert (Hs : k_n k <= s_task s -> sufficient k = false).
      { intros H. destruct (s_task s <? k_n k) eqn:G; [apply Nat.ltb_lt in G; lia|]. simpl in Ew2.
        now destruct (sufficient k). }
      destruct (mem i (s_failed s)) eqn:Em.
      { apply mem_spec in Em. cbn [fst snd]. apply SC_skip; auto. }
      assert (Nf : ~ In i (s_failed s)) by (intros H; apply mem_spec in H; congruence).
      destruct (nth_error cs i) as [[c|]|] eqn:Ec.
      + rewrite (Hs (Hc c eq_refl)). cbn [fst snd]. apply SC_skip; eauto.
      + rewrite Ew2. destruct (in_spawn x) eqn:Es; cbn [fst snd]; [apply SC_start|apply SC_spawn_err]; auto.
      + apply nth_error_None in Ec. lia.
    - assert (Hw : s_n s = k_cpus k \/ sufficient k = true /\ k_n k <= s_task s).
      { pose proof (i_cpus _ _ _ I). apply andb_false_iff in Ew as [E|E]; [apply Nat.ltb_ge in E; left; lia|].
        apply orb_false_iff in E as [E1 E2]. apply Nat.ltb_ge in E1. right. split; [now destruct (sufficient k)|exact E1]. }
      destruct (s_n s =? 0) eqn:E0.
      + apply Nat.eqb_eq in E0. destruct Hw as [Hw|[Hs Hle]]; [lia|]. rewrite Hs.
        apply Nat.leb_le in Hle as Hle'. rewrite Hle'. cbn [andb fst snd]. now apply SC_done.
      + apply Nat.eqb_neq in E0. destruct (in_poll x) as [evs|] eqn:Ep.
        * cbn [fst snd]. now apply SC_poll.
        * cbn [fst snd]. now apply SC_poll_err.
  Qed.
End Cases.

(** ** Histories of iterations *)

Lemma run_app strip k xs ys : forall s,
  run strip k s (xs ++ ys) =
  match run strip k s xs with
  | (Go s', o) => (fst (run strip k s' ys), o ++ snd (run strip k s' ys))
  | r => r
  end.
Proof.
  induction xs as [|x xs IH]; intros s; cbn [app run].
  - destruct (run strip k s ys); reflexivity.
  - destruct (step strip k s x) as [[s1|oc|] o1] eqn:E; [|reflexivity..].
    rewrite IH. destruct (run strip k s1 xs) as [[s2|oc|] o2]; cbn [fst snd]; try reflexivity.
    now rewrite app_assoc.
Qed.

Lemma failed_all k s t : inv k s t ->
  (List.length (s_failed s) = k_n k <-> forall i, i < k_n k -> failed t i).
Proof.
  intros I. split.
  - intros L i Hi. apply (i_failed _ _ _ I).
    assert (P : incl (seq 0 (k_n k)) (s_failed s)).
    { apply NoDup_length_incl; [apply (i_failed_nd _ _ _ I)|rewrite seq_length; lia|].
      intros j Hj. apply in_seq. pose proof (i_failed_lt _ _ _ I j Hj). lia. }
    apply P. apply in_seq. lia.
  - intros H. apply Nat.le_antisymm.
    + rewrite <- (seq_length (k_n k) 0). apply NoDup_incl_length; [apply (i_failed_nd _ _ _ I)|].
      intros j Hj. apply in_seq. pose proof (i_failed_lt _ _ _ I j Hj). lia.
    + rewrite <- (seq_length (k_n k) 0) at 1. apply NoDup_incl_length; [apply seq_NoDup|].
      intros j Hj. apply in_seq in Hj. apply (i_failed _ _ _ I). apply H. lia.
Qed.

(** Without the display, redrawing is a no-op. *)
Lemma refresh_no_ui strip size n cs : refresh strip true size n cs = Ret ([], cs).
Proof. reflexivity. Qed.

(** *** Exits *)

Lemma event_step_exit k s t ev o : inv k s t -> event_step k s ev = (Exit1, o) ->
  k_exit_code k = true /\ exists o1 i, o = o1 ++ [OEnd i true false] /\ has_line time_limit_marker (cur_lines (t ++ o1) i) = false.
Proof.
  intros I. unfold event_step. set (i := ev_token ev).
  destruct (k_n k <=? i); [discriminate|].
  destruct (nth_error (s_children s) i) as [[c|]|] eqn:Ec; try discriminate.
  destruct (read_event (ch_data c) (ev_reads ev)) as [[d ls]| |] eqn:Er; try discriminate.
  cbv zeta. destruct (ev_closed ev); [|discriminate]. destruct (ev_deregister ev); [|discriminate].
  destruct (s_n s); [discriminate|]. destruct (ev_wait ev) as [[|]|]; cbn [negb]; try discriminate.
  destruct (cd_aborted d); cbn [negb]; [|discriminate].
  destruct (k_exit_code k); cbn [andb]; [|discriminate].
  destruct (cd_time_limit d) eqn:Et; cbn [negb]; [discriminate|]. intros [= <-].
  split; [reflexivity|]. eexists. exists i. split; [reflexivity|].
  pose proof (i_children _ _ _ I i _ Ec) as (C1 & C2 & C3 & C4 & C5).
  destruct (read_event_facts _ _ _ _ Er C5) as (R1 & _).
  destruct (show_lines_facts (k_no_ui k) i ls (s_prev s) t i) as (_ & _ & _ & _ & E).
  rewrite E, Nat.eqb_refl, has_line_app, <- C2, orb_comm, <- R1. exact Et.
Qed.

(** After an iteration that goes on, no finding has been reported for exit. *)
Definition clean_end (k : cfg) (t : list out) (o : out) : Prop :=
  match o with
  | OEnd i true false => k_exit_code k = true -> has_line time_limit_marker (cur_lines t i) = true
  | _ => True
  end.

Lemma show_lines_no_end no_ui i ls : forall prev o, In o (snd (show_lines no_ui i prev ls)) ->
  match o with OLine _ _ | OHeader _ => True | _ => False end.
Proof.
  induction ls as [|l ls IH]; intros prev o; cbn [show_lines snd]; [intros []|].
  intros H. apply in_app_iff in H as [H|[<-|H]]; [|exact I|apply (IH _ _ H)].
  destruct (no_ui && negb (prev =? i)); [|destruct H]. destruct H as [<-|[]]. exact I.
Qed.

Lemma event_step_clean k s t ev r o : inv k s t -> event_step k s ev = (r, o) -> r <> Exit1 ->
  forall o1 e o2, o = o1 ++ e :: o2 -> clean_end k (t ++ o1) e.
Proof.
  intros I. unfold event_step. set (i := ev_token ev).
  assert (Nil : forall o1 e o2, @nil out = o1 ++ e :: o2 -> clean_end k (t ++ o1) e) by (intros [|] ? ? ?; discriminate).
  destruct (k_n k <=? i); [intros [= <- <-] _; exact Nil|].
  destruct (nth_error (s_children s) i) as [[c|]|] eqn:Ec; try (intros [= <- <-] _; exact Nil).
  destruct (read_event (ch_data c) (ev_reads ev)) as [[d ls]| |] eqn:Er; try (intros [= <- <-] _; exact Nil).
  cbv zeta. set (sh := show_lines (k_no_ui k) i (s_prev s) ls).
  assert (Sh : forall o1 e o2, snd sh = o1 ++ e :: o2 -> clean_end k (t ++ o1) e).
  { intros o1 e o2 E. assert (P : In e (snd sh)) by (rewrite E; apply in_or_app; right; now left).
    apply show_lines_no_end in P. destruct e; try exact Logic.I; contradiction. }
  assert (Shl : forall b c0, (b = true -> c0 = false -> k_exit_code k = true -> has_line time_limit_marker (cur_lines (t ++ snd sh) i) = true) ->
     forall o1 e o2, snd sh ++ [OEnd i b c0] = o1 ++ e :: o2 -> clean_end k (t ++ o1) e).
  { intros b c0 P o1 e o2 E. destruct o2 as [|z o2] using rev_ind.
    - apply app_inj_tail in E as [<- <-]. destruct b, c0; try exact Logic.I. cbn. auto.
    - clear IHo2. rewrite app_comm_cons, app_assoc in E. apply app_inj_tail in E as [E _].
      apply (Sh _ _ _ E). }
  destruct (ev_closed ev); [|intros [= <- <-] _; exact Sh].
  destruct (ev_deregister ev); [|intros [= <- <-] _; exact Sh].
  destruct (s_n s); [intros [= <- <-] _; exact Sh|].
  destruct (ev_wait ev) as [b|]; [|intros [= <- <-] _; exact Sh].
  destruct b; cbn [negb].
  2: { intros [= <- <-] _. apply Shl. discriminate. }
  destruct (cd_aborted d); cbn [negb].
  2: { intros [= <- <-] _. apply Shl. discriminate. }
  destruct (k_exit_code k && negb (cd_time_limit d)) eqn:Ee; intros [= <- <-] Hr; [contradiction|].
  apply Shl. intros _ _ Hx. rewrite Hx in Ee. cbn [andb] in Ee.
  pose proof (i_children _ _ _ I i _ Ec) as (C1 & C2 & C3 & C4 & C5).
  destruct (read_event_facts _ _ _ _ Er C5) as (R1 & _).
  destruct (show_lines_facts (k_no_ui k) i ls (s_prev s) t i) as (_ & _ & _ & _ & E). fold sh in E.
  rewrite E, Nat.eqb_refl, has_line_app, <- C2, orb_comm, <- R1. now destruct (cd_time_limit d).
Qed.

(** The property of a whole history: exit happens at, and only at, the first unclean end. *)
Definition exits_properly (k : cfg) (t : list out) (r : sresult) (o : list out) : Prop :=
  match r with
  | Exit1 => exists o1 i, o = o1 ++ [OEnd i true false] /\ k_exit_code k = true /\
               has_line time_limit_marker (cur_lines (t ++ o1) i) = false /\
               forall a e b, o1 = a ++ e :: b -> clean_end k (t ++ a) e
  | _ => forall a e b, o = a ++ e :: b -> clean_end k (t ++ a) e
  end.

Lemma clean_app k t o1 o2 :
  (forall a e b, o1 = a ++ e :: b -> clean_end k (t ++ a) e) ->
  (forall a e b, o2 = a ++ e :: b -> clean_end k ((t ++ o1) ++ a) e) ->
  forall a e b, o1 ++ o2 = a ++ e :: b -> clean_end k (t ++ a) e.
Proof.
  intros H1 H2 a e b E. revert o1 t H1 H2 E. induction a as [|x a IH]; intros [|y o1] t H1 H2 E; simpl in E.
  - rewrite app_nil_r in H2. now apply (H2 [] e b).
  - injection E as -> E. now apply (H1 [] e o1).
  - rewrite app_nil_r in H2. now apply (H2 (x :: a) e b).
  - injection E as -> E. assert (K : t ++ x :: a = (t ++ [x]) ++ a) by (rewrite <- app_assoc; reflexivity). rewrite K.
    apply (IH o1); [| |exact E].
    + intros a' e' b' ->. rewrite <- app_assoc. apply (H1 (x :: a') e' b'). reflexivity.
    + intros a' e' b' ->. assert (K2 : ((t ++ [x]) ++ o1) ++ a' = (t ++ x :: o1) ++ a') by (rewrite <- !app_assoc; reflexivity).
      rewrite K2. now apply (H2 a' e' b').
Qed.

Lemma exits_app k t s o1 r o2 : exits_properly k t (Go s) o1 -> exits_properly k (t ++ o1) r o2 -> exits_properly k t r (o1 ++ o2).
Proof.
  intros H1 H2. destruct r as [s2|oc|]; cbn [exits_properly] in *.
  - now apply clean_app.
  - now apply clean_app.
  - destruct H2 as (o & i & -> & E & T & C). exists (o1 ++ o), i. rewrite !app_assoc. repeat split; auto.
    now apply clean_app.
Qed.

Lemma event_step_exits k s t ev : inv k s t -> exits_properly k t (fst (event_step k s ev)) (snd (event_step k s ev)).
Proof.
  intros I. destruct (event_step k s ev) as [r o] eqn:E. cbn [fst snd].
  destruct r as [s'|oc|]; cbn [exits_properly].
  - apply (event_step_clean k s t ev _ o I E). discriminate.
  - apply (event_step_clean k s t ev _ o I E). discriminate.
  - destruct (event_step_exit k s t ev o I E) as (X & o1 & i & -> & T). exists o1, i. repeat split; auto.
    intros a e b ->.
    assert (Sh : exists no_ui i' prev ls, a ++ e :: b = snd (show_lines no_ui i' prev ls)).
    { clear - E. unfold event_step in E. destruct (k_n k <=? ev_token ev); [discriminate|].
      destruct (nth_error (s_children s) (ev_token ev)) as [[c|]|]; try discriminate.
      destruct (read_event (ch_data c) (ev_reads ev)) as [[d ls]| |]; try discriminate.
      cbv zeta in E. destruct (ev_closed ev); [|discriminate]. destruct (ev_deregister ev); [|discriminate].
      destruct (s_n s); [discriminate|]. destruct (ev_wait ev) as [[|]|]; cbn [negb] in E; try discriminate.
      destruct (cd_aborted d); cbn [negb] in E; [|discriminate].
      destruct (k_exit_code k && negb (cd_time_limit d)); [|discriminate]. injection E as E.
      apply app_inj_tail in E as [E _]. rewrite <- E. eauto. }
    destruct Sh as (nu & i' & prev & ls & Sh).
    assert (P : In e (snd (show_lines nu i' prev ls))) by (rewrite <- Sh; apply in_or_app; right; now left).
    apply show_lines_no_end in P. destruct e; try exact Logic.I; contradiction.
Qed.

Lemma events_steps_exits k evs : forall s t, inv k s t ->
  exits_properly k t (fst (events_steps k s evs)) (snd (events_steps k s evs)).
Proof.
  induction evs as [|ev evs IH]; intros s t I; cbn [events_steps].
  - cbn. intros [|] ? ? ?; discriminate.
  - pose proof (event_step_exits k s t ev I) as X.
    destruct (event_step k s ev) as [r1 o1] eqn:E1. cbn [fst snd] in X.
    pose proof (event_step_inv k s t ev r1 o1 I E1) as [_ I1].
    destruct r1 as [s1|oc|]; cbn [fst snd]; try exact X.
    eapply exits_app; [exact X|]. apply IH. apply I1.
Qed.

Lemma step_exits strip k s t x : inv k s t -> exits_properly k t (fst (step strip k s x)) (snd (step strip k s x)).
Proof.
  intros I.
  assert (Q : forall o, (forall e, In e o -> match e with OEnd _ _ _ => False | _ => True end) ->
     forall a e b, o = a ++ e :: b -> clean_end k (t ++ a) e).
  { intros o H a e b ->. assert (P : In e (a ++ e :: b)) by (apply in_or_app; right; now left).
    apply H in P. destruct e; try exact Logic.I; contradiction. }
  unfold step.
  destruct (refresh strip (k_no_ui k) (in_size x) (s_n s) (s_children s)) as [[rows cs]| |] eqn:R.
  2, 3: cbn [fst snd exits_properly]; apply Q; intros ? [].
  pose proof (refresh_same _ _ _ _ _ _ _ R) as F. clear R.
  cbv zeta. set (scr := if k_no_ui k then [] else [OScreen rows]).
  assert (Qs : Forall quiet scr) by (unfold scr; destruct (k_no_ui k); repeat constructor).
  assert (Hs : forall e, In e scr -> match e with OEnd _ _ _ => False | _ => True end).
  { intros e H. rewrite Forall_forall in Qs. apply Qs in H. destruct e; auto; contradiction. }
  assert (Hs1 : forall o, match o with OEnd _ _ _ => False | _ => True end -> forall e, In e (scr ++ [o]) -> match e with OEnd _ _ _ => False | _ => True end).
  { intros o Ho e H. apply in_app_iff in H as [H|[<-|[]]]; [exact (Hs _ H)|exact Ho]. }
  clearbody scr.
  destruct (_ =? _); [cbn [fst snd exits_properly]; now apply Q|].
  destruct (_ && _).
  - destruct (mem _ _); [cbn [fst snd exits_properly]; apply Q; now apply Hs1|].
    destruct (nth_error cs _) as [[c|]|]; [destruct (sufficient k)| |]; cbn [fst snd exits_properly]; try (apply Q; auto; now apply Hs1).
    destruct (_ || _); [destruct (in_spawn x)|]; cbn [fst snd exits_properly]; apply Q; auto; now apply Hs1.
  - destruct (_ =? _); [destruct (_ && _); cbn [fst snd exits_properly]; now apply Q|].
    destruct (in_poll x) as [evs|]; [|cbn [fst snd exits_properly]; now apply Q].
    cbn [fst snd].
    pose proof (inv_redraw k s t cs (scr ++ [OPoll]) I F) as J1.
    assert (Qp : Forall quiet (scr ++ [OPoll])) by (apply Forall_app; split; [exact Qs|repeat constructor]).
    specialize (J1 Qp). pose proof (events_steps_exits k evs _ _ J1) as X.
    set (er := events_steps k _ evs) in *. clearbody er.
    replace (scr ++ OPoll :: snd er) with ((scr ++ [OPoll]) ++ snd er) by (rewrite <- app_assoc; reflexivity).
    eapply exits_app; [|exact X]. cbn [exits_properly]. apply Q. now apply Hs1.
    Unshelve. exact s.
Qed.

Lemma run_exits strip k xs : forall s t, inv k s t ->
  exits_properly k t (fst (run strip k s xs)) (snd (run strip k s xs)).
Proof.
  induction xs as [|x xs IH]; intros s t I; cbn [run].
  - cbn. intros [|] ? ? ?; discriminate.
  - pose proof (step_exits strip k s t x I) as X.
    destruct (step strip k s x) as [r1 o1] eqn:E1. cbn [fst snd] in X.
    pose proof (step_inv strip k s t x r1 o1 I E1) as [_ I1].
    destruct r1 as [s1|oc|]; cbn [fst snd]; try exact X.
    eapply exits_app; [exact X|]. now apply IH.
Qed.

(** *** Progress *)

Fixpoint none_idx {A} (off : nat) (l : list (option A)) : list nat :=
  match l with
  | [] => []
  | None :: l' => off :: none_idx (S off) l'
  | Some _ :: l' => none_idx (S off) l'
  end.

Lemma none_idx_count A (l : list (option A)) : forall off, List.length (none_idx off l) + n_running l = List.length l.
Proof. induction l as [|[a|] l IH]; intros off; simpl; [reflexivity| |]; specialize (IH (S off)); lia. Qed.

Lemma none_idx_in A (l : list (option A)) : forall off j, In j (none_idx off l) ->
  off <= j /\ nth_error l (j - off) = Some None.
Proof.
  induction l as [|[a|] l IH]; intros off j; simpl; [intros []| |].
  - intros H. apply IH in H as [H1 H2]. split; [lia|]. replace (j - off) with (S (j - S off)) by lia. exact H2.
  - intros [->|H]; [split; [lia|now rewrite Nat.sub_diag]|].
    apply IH in H as [H1 H2]. split; [lia|]. replace (j - off) with (S (j - S off)) by lia. exact H2.
Qed.

Lemma none_idx_nodup A (l : list (option A)) : forall off, NoDup (none_idx off l).
Proof.
  induction l as [|[a|] l IH]; intros off; simpl; [constructor|apply IH|].
  constructor; [|apply IH]. intros H. apply none_idx_in in H. lia.
Qed.

Lemma step_go strip k s x s' o : step strip k s x = (Go s', o) ->
  exists rows cs, refresh strip (k_no_ui k) (in_size x) (s_n s) (s_children s) = Ret (rows, cs).
Proof.
  unfold step. destruct (refresh _ _ _ _ _) as [[rows cs]| |]; try discriminate. eauto.
Qed.

Lemma no_poll_run strip k xs : 0 < k_cpus k -> forall s t s' o,
  inv k s t -> run strip k s xs = (Go s', o) -> ~ In OPoll o ->
  s_failed s' = s_failed s /\ s_task s' = s_task s + List.length xs /\
  (forall i c, nth_error (s_children s) i = Some (Some c) -> exists c', nth_error (s_children s') i = Some (Some c')) /\
  (forall j, j < List.length xs -> let i := (s_task s + j) mod k_n k in
     In i (s_failed s) \/ exists c, nth_error (s_children s') i = Some (Some c)).
Proof.
  intros Hc. induction xs as [|x xs IH]; intros s t s' o I; cbn [run].
  - intros [= <- <-] _. cbn [List.length]. repeat split; [lia|eauto|lia].
  - destruct (step strip k s x) as [r1 o1] eqn:E1. destruct r1 as [s1|oc|]; try discriminate.
    destruct (run strip k s1 xs) as [r2 o2] eqn:E2. cbn [fst snd]. intros [= -> <-] Np.
    assert (Np1 : ~ In OPoll o1) by (intros H; apply Np, in_app_iff; auto).
    assert (Np2 : ~ In OPoll o2) by (intros H; apply Np, in_app_iff; auto).
    destruct (step_inv strip k s t x _ o1 I E1) as [_ I1].
    destruct (IH s1 _ s' o2 I1 E2 Np2) as (F2 & T2 & M2 & V2).
    destruct (step_go _ _ _ _ _ _ E1) as (rows & cs & R).
    pose proof (refresh_same _ _ _ _ _ _ _ R) as FS.
    pose proof (step_cases strip k s x cs _ t rows I Hc R eq_refl) as SC. rewrite E1 in SC. cbn [fst snd] in SC.
    assert (K : s_failed s1 = s_failed s /\ s_task s1 = S (s_task s) /\
      (forall i c, nth_error cs i = Some (Some c) -> exists c', nth_error (s_children s1) i = Some (Some c')) /\
      (In (s_task s mod k_n k) (s_failed s) \/ exists c, nth_error (s_children s1) (s_task s mod k_n k) = Some (Some c))).
    { inversion SC; subst; cbn [s_failed s_task s_children].
      - repeat split; auto. eauto.
      - repeat split; auto.
        + intros i c H. rewrite nth_upd. destruct (_ =? _); [rewrite H|]; eauto.
        + right. rewrite nth_upd, Nat.eqb_refl. match goal with H : nth_error cs _ = Some None |- _ => rewrite H end. eauto.
      - exfalso. apply Np1. apply in_or_app. right. now left. }
    destruct K as (F1 & T1 & M1 & V1). rewrite F2, F1, T2, T1. cbn [List.length]. repeat split; [lia| |].
    + intros i c H. destruct (same_some_fwd _ _ _ _ FS H) as [c0 H0]. destruct (M1 _ _ H0) as [c1 H1]. eauto.
    + intros [|j] Hj; cbv zeta.
      * rewrite Nat.add_0_r. destruct V1 as [V1|[c V1]]; [auto|]. right. eauto.
      * assert (Hj' : j < List.length xs) by lia. specialize (V2 j Hj'). cbv zeta in V2. rewrite F1, T1 in V2.
        replace (s_task s + S j) with (S (s_task s) + j) by lia. exact V2.
Qed.

Lemma progress strip k xs s t ys s' o L :
  0 < k_cpus k ->
  run strip k (s_init k) xs = (Go s, t) ->
  NoDup L -> List.length L = k_cpus k -> (forall i, In i L -> i < k_n k /\ ~ failed t i) ->
  List.length ys = S (k_n k) -> run strip k s ys = (Go s', o) -> In OPoll o.
Proof.
  intros Hc R ND LL HL Ly Ry. pose proof (session_inv _ _ _ _ _ R) as I.
  destruct (in_dec (fun a b : out => ltac:(decide equality; try apply Nat.eq_dec; try apply bool_dec; apply (list_eq_dec ascii_dec) || apply (list_eq_dec (list_eq_dec ascii_dec)))) OPoll o) as [D|D]; [exact D|exfalso].
  destruct ys as [|y ys _] using rev_ind; [discriminate|]. rewrite app_length in Ly. cbn [List.length] in Ly.
  rewrite run_app in Ry. destruct (run strip k s ys) as [[s1|oc|] o1] eqn:E1; try discriminate.
  cbn [run] in Ry. destruct (step strip k s1 y) as [r2 o2] eqn:E2.
  destruct r2 as [s2|oc|]; cbn [fst snd] in Ry; try discriminate. injection Ry as -> <-.
  assert (Np1 : ~ In OPoll o1) by (intros H; apply D, in_app_iff; auto).
  destruct (no_poll_run strip k ys Hc s t s1 o1 I E1 Np1) as (F1 & T1 & M1 & V1).
  destruct (run_inv strip k ys s t _ o1 I E1) as [_ I1].
  (* every target has failed or is running *)
  assert (All : forall i, i < k_n k -> In i (s_failed s1) \/ exists c, nth_error (s_children s1) i = Some (Some c)).
  { intros i Hi. assert (Hd : exists j, j < k_n k /\ (s_task s + j) mod k_n k = i).
    { set (p := s_task s). set (n := k_n k) in *. pose proof (Nat.mod_upper_bound p n).
      destruct (le_lt_dec (p mod n) i) as [H1|H1].
      - exists (i - p mod n). split; [lia|]. rewrite (Nat.div_mod p n) at 1 by lia.
        replace (n * (p / n) + p mod n + (i - p mod n)) with (i + (p / n) * n) by lia.
        rewrite Nat.mod_add by lia. now apply Nat.mod_small.
      - exists (n + i - p mod n). split; [lia|]. rewrite (Nat.div_mod p n) at 1 by lia.
        replace (n * (p / n) + p mod n + (n + i - p mod n)) with (i + (p / n + 1) * n) by lia.
        rewrite Nat.mod_add by lia. now apply Nat.mod_small. }
    destruct Hd as (j & Hj & Ej). assert (Hj' : j < List.length ys) by lia. specialize (V1 j Hj'). cbv zeta in V1.
    rewrite Ej, <- F1 in V1. exact V1. }
  assert (Cnt : k_n k <= n_running (s_children s1) + List.length (s_failed s1)).
  { pose proof (none_idx_count _ (s_children s1) 0) as C. rewrite (i_len _ _ _ I1) in C.
    assert (List.length (none_idx 0 (s_children s1)) <= List.length (s_failed s1)); [|lia].
    apply NoDup_incl_length; [apply none_idx_nodup|]. intros j Hj. apply none_idx_in in Hj as [_ Hj]. rewrite Nat.sub_0_r in Hj.
    assert (Hlt : j < k_n k).
    { rewrite <- (i_len _ _ _ I1). apply nth_error_Some. congruence. }
    destruct (All j Hlt) as [H|[c H]]; [exact H|congruence]. }
  assert (Fl : List.length L + List.length (s_failed s1) <= k_n k).
  { rewrite <- app_length, <- (seq_length (k_n k) 0). apply NoDup_incl_length.
    - rewrite F1. clear - ND HL I. induction ND as [|a L N ND IH]; cbn [app]; [apply (i_failed_nd _ _ _ I)|].
      constructor.
      + rewrite in_app_iff. intros [H|H]; [contradiction|]. apply (i_failed _ _ _ I) in H. now apply (HL a (or_introl eq_refl)).
      + apply IH. intros i Hi. apply HL. now right.
    - intros i Hi. apply in_seq. apply in_app_iff in Hi as [Hi|Hi]; [apply HL in Hi; lia|].
      pose proof (i_failed_lt _ _ _ I1 i Hi). lia. }
  assert (Full : k_cpus k <= s_n s1) by (rewrite (i_n _ _ _ I1); lia).
  destruct (step_go _ _ _ _ _ _ E2) as (rows & cs & R2).
  pose proof (step_cases strip k s1 y cs _ _ rows I1 Hc R2 eq_refl) as SC. rewrite E2 in SC. cbn [fst snd] in SC.
  inversion SC; subst; try lia.
  apply D. apply in_or_app. right. rewrite app_nil_r. apply in_or_app. right. now left.
Qed.

(** *** Livelock *)

Definition stuck (k : cfg) (s : sstate) : Prop :=
  (forall i, i < k_n k -> In i (s_failed s) \/ exists c, nth_error (s_children s) i = Some (Some c)) /\
  s_n s < k_cpus k /\ List.length (s_failed s) <> k_n k.

Lemma stuck_step strip k s t x : k_no_ui k = true -> sufficient k = false -> inv k s t -> stuck k s ->
  exists s' i, step strip k s x = (Go s', [OSkip i]) /\ stuck k s'.
Proof.
  intros Hu Hs I (A & N & F). unfold step. rewrite Hu, refresh_no_ui. cbv zeta.
  apply Nat.eqb_neq in F as F'. rewrite F'. apply Nat.ltb_lt in N as N'. rewrite N', Hs. cbn [andb negb].
  rewrite orb_true_r. cbn [app].
  assert (Hi : s_task s mod k_n k < k_n k).
  { apply Nat.mod_upper_bound. intros Z. apply F. rewrite Z. destruct (s_failed s) as [|a l] eqn:E; [reflexivity|].
    assert (a < k_n k) by (apply (i_failed_lt _ _ _ I); rewrite E; now left). lia. }
  destruct (mem (s_task s mod k_n k) (s_failed s)) eqn:Em.
  - eexists. eexists. split; [reflexivity|]. split; [exact A|]. split; [exact N|exact F].
  - destruct (A _ Hi) as [H|[c H]]; [apply mem_spec in H; congruence|]. rewrite H.
    eexists. eexists. split; [reflexivity|]. split; [exact A|]. split; [exact N|exact F].
Qed.

Lemma stuck_run strip k : k_no_ui k = true -> sufficient k = false -> forall ys s t, inv k s t -> stuck k s ->
  exists s' turns, run strip k s ys = (Go s', map OSkip turns) /\ List.length turns = List.length ys.
Proof.
  intros Hu Hs. induction ys as [|y ys IH]; intros s t I S; cbn [run].
  - exists s, []. auto.
  - destruct (stuck_step strip k s t y Hu Hs I S) as (s1 & i & E & S1). rewrite E.
    destruct (step_inv strip k s t y _ _ I E) as [_ I1].
    destruct (IH s1 _ I1 S1) as (s' & tu & E2 & L). rewrite E2. cbn [fst snd]. exists s', (i :: tu).
    split; [reflexivity|]. simpl. now rewrite L.
Qed.

(** *** No assertion fails *)

Lemma ascii_split_inclusive s : is_ascii s -> Forall is_ascii (split_inclusive s).
Proof.
  intros H. pose proof (split_inclusive_concat s) as E. rewrite <- E in H. clear E.
  induction (split_inclusive s) as [|l ls IH]; [constructor|]. cbn [List.concat] in H.
  apply is_ascii_app in H as [H1 H2]. constructor; auto.
Qed.

Lemma ascii_lines s : is_ascii s -> Forall is_ascii (lines s).
Proof.
  intros H. apply ascii_split_inclusive in H. unfold lines. apply Forall_map. eapply Forall_impl; [|exact H].
  intros l Hl. unfold chomp. destruct (strip_suffix [LF] l) as [l1|] eqn:E1; [|exact Hl].
  apply strip_suffix_spec in E1. subst l. apply is_ascii_app in Hl as [Hl _].
  destruct (strip_suffix [CR] l1) as [l2|] eqn:E2; [|exact Hl].
  apply strip_suffix_spec in E2. subst l1. now apply is_ascii_app in Hl.
Qed.

Definition child_ascii (c : child) : Prop :=
  is_ascii (ch_target c) /\ Forall is_ascii (ch_buffer c) /\ is_ascii (cd_unprinted (ch_data c)).
Definition all_ascii (s : sstate) : Prop := forall i c, nth_error (s_children s) i = Some (Some c) -> child_ascii c.

Lemma read_event_ascii d rs d' ls : read_event d rs = Ret (d', ls) ->
  is_ascii (cd_unprinted d) -> is_ascii (delivered rs) -> is_ascii (cd_unprinted d') /\ Forall is_ascii ls.
Proof.
  intros H A1 A2.
  assert (D : readable rs \/ ~ readable rs) by (clear; induction rs as [|[[|c b]| | |] rs IH]; simpl; auto).
  destruct D as [D|D].
  - destruct (splits_exists (cd_unprinted d ++ delivered rs)) as (a & b & S).
    rewrite (read_event_spec d rs a b D S) in H. destruct (valid_utf8 a); [|discriminate].
    injection H as <- <-. cbn [cd_unprinted]. destruct S as [S _].
    assert (A : is_ascii (a ++ b)) by (rewrite <- S; apply is_ascii_app; auto). apply is_ascii_app in A as [Aa Ab].
    split; [exact Ab|now apply ascii_lines].
  - unfold read_event, read_lines in H. rewrite (read_loop_err _ _ D) in H. discriminate.
Qed.

Lemma event_step_safe k s t ev : inv k s t ->
  live t (ev_token ev) = 1 ->
  fst (event_step k s ev) <> Finished Panic /\
  (forall s', fst (event_step k s ev) = Go s' ->
     (forall j, j <> ev_token ev -> nth_error (s_children s') j = nth_error (s_children s) j) /\
     (all_ascii s -> is_ascii (delivered (ev_reads ev)) -> all_ascii s')).
Proof.
  intros I Hl.
  assert (Hi : ev_token ev < k_n k).
  { destruct (le_lt_dec (k_n k) (ev_token ev)) as [H|H]; [|exact H].
    destruct (i_beyond _ _ _ I _ H) as [H1 H2]. unfold live in Hl. lia. }
  pose proof (live_children _ _ _ _ I Hi) as LC. rewrite Hl in LC.
  unfold event_step. set (i := ev_token ev) in *.
  assert (Ei : (k_n k <=? i) = false) by (apply Nat.leb_gt; exact Hi). rewrite Ei.
  destruct (nth_error (s_children s) i) as [[c|]|] eqn:Ec; [|discriminate..]. clear LC.
  destruct (read_event (ch_data c) (ev_reads ev)) as [[d ls]| |] eqn:Er.
  2: split; [discriminate|]; intros s'; discriminate.
  2: { exfalso. clear - Er. unfold read_event, read_lines in Er. destruct (read_loop _ _); [|discriminate].
       cbn [bind] in Er. destruct (position_lf _); [|discriminate]. cbv zeta in Er.
       destruct (valid_utf8 _); discriminate. }
  cbv zeta. set (sh := show_lines (k_no_ui k) i (s_prev s) ls).
  assert (U : forall f n, all_ascii s -> all_ascii {| s_children := upd (s_children s) i None; s_n := n; s_task := s_task s; s_iter := s_iter s; s_failed := f; s_prev := fst sh |}).
  { intros f n H j c' E. cbn [s_children] in E. rewrite nth_upd in E. destruct (i =? j); [|eauto].
    destruct (nth_error (s_children s) j); discriminate. }
  assert (W : forall x j, j <> i -> nth_error (upd (s_children s) i x) j = nth_error (s_children s) j).
  { intros x j H. rewrite nth_upd. apply not_eq_sym, Nat.eqb_neq in H. now rewrite H. }
  destruct (ev_closed ev).
  2: { split; [discriminate|]. intros s' [= <-]. split; [intros j Hj; apply W; exact Hj|].
    intros A D j c' E. cbn [s_children] in E. rewrite nth_upd in E. destruct (i =? j) eqn:Eij; [|eauto].
    apply Nat.eqb_eq in Eij. rewrite <- Eij, Ec in E. injection E as <-.
    destruct (A i c Ec) as (A1 & A2 & A3). destruct (read_event_ascii _ _ _ _ Er A3 D) as [B1 B2].
    split; [exact A1|]. cbn [ch_buffer ch_data]. split; [|exact B1]. destruct (k_no_ui k); [exact A2|]. apply Forall_app; auto. }
  destruct (ev_deregister ev); [|split; [discriminate|intros s'; discriminate]].
  destruct (s_n s) as [|n'] eqn:En.
  { exfalso. pose proof (i_n _ _ _ I) as H. rewrite En in H. rewrite (n_running_none _ _ _ _ Ec) in H. discriminate. }
  destruct (ev_wait ev) as [[|]|]; cbn [negb].
  - destruct (cd_aborted d); cbn [negb].
    + destruct (k_exit_code k && negb (cd_time_limit d)); (split; [discriminate|]); intros s'; [discriminate|].
      intros [= <-]. split; [intros j Hj; apply W; exact Hj|]. intros A _. now apply U.
    + split; [discriminate|]. intros s' [= <-]. split; [intros j Hj; apply W; exact Hj|]. intros A _. now apply U.
  - split; [discriminate|]. intros s' [= <-]. split; [intros j Hj; apply W; exact Hj|]. intros A _. now apply U.
  - split; [discriminate|]. intros s'; discriminate.
Qed.

Lemma events_steps_safe k evs : forall s t, inv k s t ->
  NoDup (map ev_token evs) -> Forall (fun ev => live t (ev_token ev) = 1) evs ->
  fst (events_steps k s evs) <> Finished Panic /\
  (forall s', fst (events_steps k s evs) = Go s' -> all_ascii s ->
     Forall (fun ev => is_ascii (delivered (ev_reads ev))) evs -> all_ascii s').
Proof.
  induction evs as [|ev evs IH]; intros s t I ND F; cbn [events_steps].
  - cbn [fst]. split; [discriminate|]. intros s' [= <-]. auto.
  - inversion ND as [|? ? N ND']; subst. inversion F as [|? ? Hl F']; subst.
    destruct (event_step_safe k s t ev I Hl) as [S1 S2].
    destruct (event_step k s ev) as [r1 o1] eqn:E1. cbn [fst] in *.
    destruct (event_step_inv k s t ev r1 o1 I E1) as [_ I1].
    destruct r1 as [s1|oc|]; cbn [fst]; [|split; [exact S1|discriminate]..].
    destruct I1 as [I1 _]. destruct (S2 s1 eq_refl) as [K A].
    assert (F1 : Forall (fun ev => live (t ++ o1) (ev_token ev) = 1) evs).
    { rewrite Forall_forall in *. intros e He. specialize (F' e He).
      assert (Ne : ev_token e <> ev_token ev) by (intros E; apply N; rewrite <- E; now apply in_map).
      assert (Hi : ev_token e < k_n k).
      { destruct (le_lt_dec (k_n k) (ev_token e)) as [H|H]; [|exact H].
        destruct (i_beyond _ _ _ I _ H) as [H1 H2]. unfold live in F'. lia. }
      rewrite (live_children _ _ _ _ I1 Hi), (K _ Ne), <- (live_children _ _ _ _ I Hi). exact F'. }
    destruct (IH s1 _ I1 ND' F1) as [P1 P2]. split; [exact P1|].
    intros s' E As Fa. inversion Fa; subst. apply (P2 s' E); auto.
Qed.

(** What the environment must respect: a terminal whose size can be determined and
    ASCII output if the display is used; events only for running fuzzers, each at most
    once per batch. *)
Definition env_ok (k : cfg) (t : list out) (x : input) : Prop :=
  (k_no_ui k = false -> in_size x <> None) /\
  forall evs, in_poll x = Some evs ->
    NoDup (map ev_token evs) /\ Forall (fun ev => live t (ev_token ev) = 1) evs /\
    (k_no_ui k = false -> Forall (fun ev => is_ascii (delivered (ev_reads ev))) evs).

Definition honest (strip : bytes -> bytes) (k : cfg) (xs : list input) : Prop :=
  forall xs1 x xs2 s t, xs = xs1 ++ x :: xs2 -> run strip k (s_init k) xs1 = (Go s, t) -> env_ok k t x.

Lemma same_ascii cs cs' : Forall2 same_child cs cs' ->
  (forall i c, nth_error cs i = Some (Some c) -> child_ascii c) ->
  forall i c, nth_error cs' i = Some (Some c) -> child_ascii c.
Proof.
  induction 1 as [|a b l l' S F IH]; intros H i c E; [destruct i; discriminate|].
  destruct i as [|i]; simpl in E.
  - injection E as ->. destruct a as [c0|]; [|contradiction]. destruct S as (S1 & S2 & old & S3).
    destruct (H 0 c0 eq_refl) as (A1 & A2 & A3). unfold child_ascii. rewrite <- S1, <- S2. split; [exact A1|]. split; [|exact A3].
    rewrite S3 in A2. apply Forall_app in A2. tauto.
  - apply (IH (fun j c' E' => H (Datatypes.S j) c' E') i c E).
Qed.

Lemma step_safe strip k s t x : 0 < k_cpus k -> streaming strip -> inv k s t ->
  (k_no_ui k = false -> Forall is_ascii (k_names k) /\ all_ascii s) -> env_ok k t x ->
  fst (step strip k s x) <> Finished Panic /\
  forall s', fst (step strip k s x) = Go s' -> k_no_ui k = false -> all_ascii s'.
Proof.
  intros Hc Hst I HA [E1 E2].
  assert (R : exists rows cs, refresh strip (k_no_ui k) (in_size x) (s_n s) (s_children s) = Ret (rows, cs)).
  { destruct (k_no_ui k) eqn:U; [rewrite refresh_no_ui; eauto|]. destruct (HA eq_refl) as [An As]. specialize (E1 eq_refl).
    unfold refresh. destruct (in_size x) as [[r c]|]; [|contradiction]. destruct (r <? s_n s + 1); [eauto|].
    rewrite (i_n _ _ _ I), Nat.eqb_refl.
    destruct (draw_panels_ok strip Hst c (r - (n_running (s_children s) + 1)) (n_running (s_children s)) (s_children s) 0) as [[rows cs] E].
    - intros c' Hin. apply In_nth_error in Hin as [j Hj]. destruct (As j c' Hj) as (A1 & A2 & _). auto.
    - rewrite E. eauto. }
  destruct R as (rows & cs & R). pose proof (refresh_same _ _ _ _ _ _ _ R) as FS.
  pose proof (step_cases strip k s x cs _ t rows I Hc R eq_refl) as SC.
  set (r := fst (step strip k s x)) in *. set (o := snd (step strip k s x)) in *. clearbody r o.
  inversion SC; subst; try (split; [discriminate|intros s'; discriminate]).
  - split; [discriminate|]. intros s' [= <-] U. destruct (HA U) as [_ As]. intros j c' E. cbn [s_children] in E.
    eapply same_ascii; eauto.
  - split; [discriminate|]. intros s' [= <-] U. destruct (HA U) as [An As]. intros j c' E. cbn [s_children] in E.
    rewrite nth_upd in E. destruct (_ =? j).
    + destruct (nth_error cs j); [|discriminate]. injection E as <-. unfold child_ascii, new_child. cbn.
      split; [|split; constructor].
      unfold name_at. rewrite Forall_forall in An. destruct (nth_in_or_default e (k_names k) []) as [D|D]; [auto|rewrite D; constructor].
    + eapply same_ascii; eauto.
  - destruct (E2 evs H2) as (N & F & Fa).
    set (scr := if k_no_ui k then [] else [OScreen rows]) in *.
    assert (Q : Forall quiet (scr ++ [OPoll])).
    { apply Forall_app. split; [|repeat constructor]. unfold scr. destruct (k_no_ui k); repeat constructor. }
    pose proof (inv_redraw k s t cs (scr ++ [OPoll]) I FS Q) as J.
    set (s0 := {| s_children := cs; s_n := s_n s; s_task := s_task s; s_iter := s_iter s; s_failed := s_failed s; s_prev := s_prev s |}) in *.
    destruct (events_steps_safe k evs s0 _ J N) as [P1 P2].
    { eapply Forall_impl; [|exact F]. intros ev H3. cbv beta in *. unfold live in *.
      destruct (quiet_facts _ t (ev_token ev) Q) as (A1 & A2 & _). now rewrite A1, A2. }
    split; [exact P1|]. intros s' E U. apply (P2 s' E); [|auto]. destruct (HA U) as [_ As].
    intros j c' E'. cbn [s_children s0] in E'. eapply same_ascii; eauto.
Qed.

Lemma run_safe strip k xs : 0 < k_cpus k -> streaming strip ->
  (k_no_ui k = false -> Forall is_ascii (k_names k)) -> honest strip k xs ->
  fst (run strip k (s_init k) xs) <> Finished Panic /\
  forall s, fst (run strip k (s_init k) xs) = Go s -> k_no_ui k = false -> all_ascii s.
Proof.
  intros Hc Hst An. induction xs as [|x xs IH] using rev_ind; intros H.
  - cbn. split; [discriminate|]. intros s [= <-] _ i c E. cbn [s_children s_init] in E.
    apply nth_error_In, repeat_spec in E. discriminate.
  - assert (H' : honest strip k xs).
    { intros xs1 y xs2 s t E R. apply (H xs1 y (xs2 ++ [x]) s t); [|exact R]. rewrite E, <- app_assoc. reflexivity. }
    destruct (IH H') as [P1 P2]. rewrite run_app.
    destruct (run strip k (s_init k) xs) as [[s1|oc|] o1] eqn:E1; cbn [fst] in *; try (split; [exact P1|discriminate]).
    pose proof (session_inv _ _ _ _ _ E1) as I.
    destruct (step_safe strip k s1 o1 x Hc Hst I) as [Q1 Q2].
    { intros U. split; [auto|]. apply (P2 s1 eq_refl U). }
    { apply (H xs x [] s1 o1); auto. }
    cbn [run]. destruct (step strip k s1 x) as [r2 o2] eqn:E2. cbn [fst] in *.
    destruct r2 as [s2|oc|]; cbn [fst]; split; auto; discriminate.
Qed.

(** *** How a session ends *)

Lemma event_step_fin k s ev : fst (event_step k s ev) <> Finished (Ret tt) /\ fst (event_step k s ev) <> Finished (Err all_failed_msg).
Proof.
  unfold event_step. destruct (k_n k <=? ev_token ev); [split; discriminate|].
  destruct (nth_error _ _) as [[c|]|]; try (split; discriminate).
  destruct (read_event (ch_data c) (ev_reads ev)) as [[d ls]|e|] eqn:E; try (split; discriminate).
  - cbv zeta. destruct (ev_closed ev); [|split; discriminate]. destruct (ev_deregister ev); [|split; discriminate].
    destruct (s_n s); [split; discriminate|]. destruct (ev_wait ev) as [[|]|]; cbn [negb]; try (split; discriminate).
    destruct (cd_aborted d); cbn [negb]; [|split; discriminate].
    destruct (k_exit_code k && negb (cd_time_limit d)); split; discriminate.
  - cbn [fst]. split; [discriminate|]. intros [= ->]. unfold read_event, read_lines in E. destruct (read_loop _ _); [|discriminate].
    cbn [bind] in E. destruct (position_lf _); [|discriminate]. cbv zeta in E. destruct (valid_utf8 _); discriminate.
Qed.

Lemma events_steps_fin k evs : forall s, fst (events_steps k s evs) <> Finished (Ret tt) /\ fst (events_steps k s evs) <> Finished (Err all_failed_msg).
Proof.
  induction evs as [|ev evs IH]; intros s; cbn [events_steps]; [split; discriminate|].
  pose proof (event_step_fin k s ev) as P. destruct (event_step k s ev) as [[s1|oc|] o1]; cbn [fst] in *; auto.
Qed.

Lemma refresh_err strip no_ui size n cs e : refresh strip no_ui size n cs <> Err e.
Proof.
  assert (Pe : forall s w e, prefix_with_width strip s w <> Err e).
  { intros s w e'. unfold prefix_with_width. destruct (pw_loop _ _ _ _ _ _); try discriminate. destruct (slice_to _ _); discriminate. }
  assert (De : forall s w e, divider_with_width strip s w <> Err e).
  { intros s w e'. unfold divider_with_width. cbv zeta. destruct (_ <=? _); [apply Pe|discriminate]. }
  assert (Me : forall A (f : A -> outcome str) l e, (forall a e', f a <> Err e') -> mapM f l <> Err e).
  { intros A f l e' H. revert e'. induction l as [|a l IH]; intros e'; cbn [mapM]; [discriminate|].
    specialize (H a). destruct (f a); cbn [bind]; [|now destruct (H e0)|discriminate]. destruct (mapM f l); cbn [bind]; [discriminate|now destruct (IH e0)|discriminate]. }
  unfold refresh. destruct no_ui; [discriminate|]. destruct size as [[r c]|]; [|discriminate].
  destruct (r <? n + 1); [discriminate|]. destruct (n =? n_running cs); [|discriminate].
  generalize (r - (n + 1)). generalize 0. intros i av. revert e i.
  induction cs as [|[ch|] cs IH]; intros e i; cbn [draw_panels]; [discriminate| |].
  - unfold draw_panel. destruct (divider_with_width strip (ch_target ch) c) eqn:D; cbn [bind]; [|now apply De in D|discriminate].
    cbv zeta. destruct (mapM _ _) eqn:M; cbn [bind]; [| |discriminate].
    + destruct (draw_panels strip c av n (S i) cs) eqn:X; cbn [bind]; [discriminate| |discriminate]. now apply IH in X.
    + exfalso. apply Me in M; [exact M|]. intros a' e'. destruct (nth_error _ a'); [apply Pe|discriminate].
  - destruct (draw_panels strip c av n i cs) eqn:X; cbn [bind]; [discriminate| |discriminate]. now apply IH in X.
Qed.

Lemma step_fin strip k s t x r o : 0 < k_cpus k -> inv k s t -> step strip k s x = (r, o) ->
  (r = Finished (Ret tt) -> List.length (s_failed s) <> k_n k /\ s_n s = 0 /\ sufficient k = true /\ k_n k <= s_task s /\ Forall quiet o) /\
  (r = Finished (Err all_failed_msg) -> List.length (s_failed s) = k_n k /\ Forall quiet o).
Proof.
  intros Hc I E.
  destruct (refresh strip (k_no_ui k) (in_size x) (s_n s) (s_children s)) as [[rows cs]|e|] eqn:R.
  - pose proof (step_cases strip k s x cs _ t rows I Hc R eq_refl) as SC. rewrite E in SC. cbn [fst snd] in SC.
    assert (Q : Forall quiet (if k_no_ui k then [] else [OScreen rows])) by (destruct (k_no_ui k); repeat constructor).
    inversion SC; subst; (split; [intros Hr; try discriminate|intros Hr; try discriminate]); auto.
    + exfalso. exact (proj1 (events_steps_fin _ _ _) Hr).
    + exfalso. exact (proj2 (events_steps_fin _ _ _) Hr).
  - exfalso. eapply refresh_err; exact R.
  - unfold step in E. rewrite R in E. injection E as <- <-. split; discriminate.
Qed.

(** A finished session: the last iteration. *)
Lemma run_last strip k xs : forall s oc o, run strip k s xs = (Finished oc, o) ->
  exists xs1 x xs2 s1 o1 o2, xs = xs1 ++ x :: xs2 /\ run strip k s xs1 = (Go s1, o1) /\
    step strip k s1 x = (Finished oc, o2) /\ o = o1 ++ o2.
Proof.
  induction xs as [|x xs IH]; intros s oc o; cbn [run]; [discriminate|].
  destruct (step strip k s x) as [[s1|oc'|] o1] eqn:E; try discriminate.
  - destruct (run strip k s1 xs) as [r2 o2] eqn:E2. cbn [fst snd]. intros [= -> <-].
    destruct (IH s1 oc o2 E2) as (xs1 & y & xs2 & s2 & p1 & p2 & -> & R & S & ->).
    exists (x :: xs1), y, xs2, s2, (o1 ++ p1), p2. repeat split; auto.
    + cbn [run]. rewrite E, R. reflexivity.
    + now rewrite app_assoc.
  - intros [= -> <-]. exists [], x, xs, s, [], o1. repeat split; auto.
Qed.
