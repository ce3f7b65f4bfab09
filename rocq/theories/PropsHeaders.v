(** C74: without the display, every line is printed below the name of its target. *)
From Coq Require Import List Ascii String Bool Arith NArith Lia.
From Verif Require Import Base Utf8 Lines Ui Sched SchedInv.
Import ListNotations.
Local Open Scope nat_scope.

(** The output of a session read from top to bottom, with the target announced last before
    and after: a line of the target announced last stands alone, a line of another target
    follows immediately upon the announcement of that target; nothing else is announced. *)
Inductive console : option nat -> list out -> option nat -> Prop :=
  | co_end cur : console cur [] cur
  | co_same i l t cur' : console (Some i) t cur' -> console (Some i) (OLine i l :: t) cur'
  | co_change cur i l t cur' : cur <> Some i -> console (Some i) t cur' -> console cur (OHeader i :: OLine i l :: t) cur'
  | co_start cur i e f t cur' : console cur t cur' -> console cur (OStart i e f :: t) cur'
  | co_skip cur i t cur' : console cur t cur' -> console cur (OSkip i :: t) cur'
  | co_poll cur t cur' : console cur t cur' -> console cur (OPoll :: t) cur'
  | co_finish cur i a b t cur' : console cur t cur' -> console cur (OEnd i a b :: t) cur'.

Lemma console_app a cur t cur' t' : console a t cur -> console cur t' cur' -> console a (t ++ t') cur'.
Proof. intros H. induction H; intros H'; cbn [app]; auto; constructor; auto. Qed.

(** [i_target_prev] and the target announced last. *)
Definition agrees (k : cfg) (p : nat) (cur : option nat) : Prop :=
  match cur with Some i => p = i /\ i < k_n k | None => p = k_n k end.

Lemma show_lines_console k i ls : forall p cur, i < k_n k -> agrees k p cur ->
  exists cur', console cur (snd (show_lines true i p ls)) cur' /\ agrees k (fst (show_lines true i p ls)) cur'.
Proof.
  induction ls as [|l ls IH]; intros p cur B A; [exists cur; split; [constructor|exact A]|].
  cbn [show_lines fst snd andb]. destruct (IH i (Some i) B) as (cur' & C & A'); [split; auto|]. exists cur'. split; [|exact A'].
  destruct (Nat.eqb_spec p i) as [->|N]; cbn [negb app].
  - destruct cur as [j|]; [|cbn in A; lia]. destruct A as [-> _]. now constructor.
  - apply co_change; [|exact C]. intros ->. destruct A. congruence.
Qed.

Lemma event_step_console k s ev cur r o : k_no_ui k = true -> agrees k (s_prev s) cur -> event_step k s ev = (r, o) ->
  exists cur', console cur o cur' /\ match r with Go s' => agrees k (s_prev s') cur' | _ => True end.
Proof.
  intros U A E. unfold event_step in E. destruct (k_n k <=? ev_token ev) eqn:B; [injection E as <- <-; exists cur; split; [constructor|exact I]|].
  apply Nat.leb_gt in B.
  destruct (nth_error (s_children s) (ev_token ev)) as [[c|]|]; try (injection E as <- <-; exists cur; split; [constructor|exact I]).
  destruct (read_event (ch_data c) (ev_reads ev)) as [[d ls]|e|]; try (injection E as <- <-; exists cur; split; [constructor|exact I]).
  destruct (show_lines_console k (ev_token ev) ls (s_prev s) cur B A) as (cur' & C & A'). rewrite U in E.
  destruct (show_lines true (ev_token ev) (s_prev s) ls) as [p' shown]. cbn [fst snd] in *.
  exists cur'. destruct (ev_closed ev); [|injection E as <- <-; auto]. destruct (ev_deregister ev); [|injection E as <- <-; auto].
  destruct (s_n s); [injection E as <- <-; auto|]. destruct (ev_wait ev) as [b|]; [|injection E as <- <-; auto].
  assert (X : forall a b, console cur (shown ++ [OEnd (ev_token ev) a b]) cur') by (intros; eapply console_app; [exact C|repeat constructor]).
  destruct (negb b); [injection E as <- <-; auto|]. destruct (negb (cd_aborted d)); [injection E as <- <-; auto|].
  destruct (k_exit_code k && negb (cd_time_limit d))%bool; injection E as <- <-; auto.
Qed.

Lemma events_steps_console k evs : k_no_ui k = true -> forall s cur r o, agrees k (s_prev s) cur -> events_steps k s evs = (r, o) ->
  exists cur', console cur o cur' /\ match r with Go s' => agrees k (s_prev s') cur' | _ => True end.
Proof.
  intros U. induction evs as [|ev evs IH]; intros s cur r o A E; cbn [events_steps] in E.
  - injection E as <- <-. exists cur. split; [constructor|exact A].
  - destruct (event_step k s ev) as [r1 o1] eqn:E1. destruct (event_step_console _ _ _ _ _ _ U A E1) as (cur1 & C1 & A1).
    destruct r1 as [s1| |]; [|injection E as <- <-; eauto|injection E as <- <-; eauto].
    destruct (events_steps k s1 evs) as [r2 o2] eqn:E2. cbn [fst snd] in E. injection E as <- <-.
    destruct (IH _ _ _ _ A1 E2) as (cur2 & C2 & A2). exists cur2. split; [eapply console_app; eauto|exact A2].
Qed.

Lemma step_console strip k s x cur r o : k_no_ui k = true -> agrees k (s_prev s) cur -> step strip k s x = (r, o) ->
  exists cur', console cur o cur' /\ match r with Go s' => agrees k (s_prev s') cur' | _ => True end.
Proof.
  intros U A E. unfold step in E. destruct (refresh strip (k_no_ui k) (in_size x) (s_n s) (s_children s)) as [[rows cs]|e|];
    try (injection E as <- <-; exists cur; split; [constructor|exact I]).
  rewrite U in E. cbn [app] in E.
  destruct (List.length (s_failed s) =? k_n k); [injection E as <- <-; exists cur; split; [constructor|exact I]|].
  destruct ((s_n s <? k_cpus k) && ((s_task s <? k_n k) || negb (sufficient k)))%bool.
  - destruct (mem _ _); [injection E as <- <-; exists cur; split; [repeat constructor|exact A]|].
    destruct (nth_error cs (s_task s mod k_n k)) as [[c|]|].
    + destruct (sufficient k); injection E as <- <-; exists cur; (split; [repeat constructor|auto]).
    + destruct ((s_task s <? k_n k) || negb (sufficient k))%bool; [|injection E as <- <-; exists cur; split; [repeat constructor|auto]].
      destruct (in_spawn x); injection E as <- <-; exists cur; (split; [repeat constructor|auto]).
    + injection E as <- <-; exists cur; split; [repeat constructor|auto].
  - destruct (s_n s =? 0); [destruct (sufficient k && (k_n k <=? s_task s))%bool; injection E as <- <-; exists cur; (split; [repeat constructor|auto])|].
    destruct (in_poll x) as [evs|]; [|injection E as <- <-; exists cur; split; [repeat constructor|auto]].
    match type of E with context [events_steps k ?s' evs] => destruct (events_steps k s' evs) as [r1 o1] eqn:E1; destruct (events_steps_console k evs U s' cur r1 o1 A E1) as (cur1 & C1 & A1) end.
    cbn [fst snd] in E. injection E as <- <-. exists cur1. split; [now constructor|exact A1].
Qed.

Lemma run_console strip k xs : k_no_ui k = true -> forall s cur r o, agrees k (s_prev s) cur -> run strip k s xs = (r, o) -> exists cur', console cur o cur'.
Proof.
  intros U. induction xs as [|x xs IH]; intros s cur r o A E; cbn [run] in E.
  - injection E as <- <-. exists cur. constructor.
  - destruct (step strip k s x) as [r1 o1] eqn:E1. destruct (step_console _ _ _ _ _ _ _ U A E1) as (cur1 & C1 & A1).
    destruct r1 as [s1| |]; [|injection E as <- <-; eauto|injection E as <- <-; eauto].
    destruct (run strip k s1 xs) as [r2 o2] eqn:E2. cbn [fst snd] in E. injection E as <- <-.
    destruct (IH _ _ _ _ A1 E2) as (cur2 & C2). exists cur2. eapply console_app; eauto.
Qed.

(** Every session without display, whatever happens outside. *)
Theorem C74_console :
  forall strip k xs r t, k_no_ui k = true -> run strip k (s_init k) xs = (r, t) -> exists cur, console None t cur.
Proof. intros strip k xs r t U E. eapply run_console; [exact U| |exact E]. reflexivity. Qed.
Print Assumptions C74_console.

(** In particular, a reader who looks for the last name above a line finds the line's target. *)
Theorem C74_attributable :
  forall strip k xs r t1 i l t2, k_no_ui k = true -> run strip k (s_init k) xs = (r, t1 ++ OLine i l :: t2) ->
    exists a b, t1 = a ++ OHeader i :: b /\ forall j, ~ In (OHeader j) b.
Proof.
  intros strip k xs r t1 i l t2 U E. destruct (C74_console _ _ _ _ _ U E) as (cur' & C). clear E.
  assert (G : forall t cur, console cur t cur' -> forall t1, t = t1 ++ OLine i l :: t2 ->
     (cur = Some i /\ forall j, ~ In (OHeader j) t1) \/ exists a b, t1 = a ++ OHeader i :: b /\ forall j, ~ In (OHeader j) b).
  { clear. intros t cur C.
    assert (CONS : forall o t1, (forall j, o <> OHeader j) -> forall c, (c = Some i /\ (forall j, ~ In (OHeader j) t1)) \/ (exists a b, t1 = a ++ OHeader i :: b /\ (forall j, ~ In (OHeader j) b)) ->
        (c = Some i /\ (forall j, ~ In (OHeader j) (o :: t1))) \/ (exists a b, o :: t1 = a ++ OHeader i :: b /\ (forall j, ~ In (OHeader j) b))).
    { intros o t1 N c [[-> H]|(a & b & -> & H)]; [left; split; [reflexivity|]; intros j [X|X]; [now apply (N j)|now apply (H j)]|right; exists (o :: a), b; auto]. }
    induction C as [cur|i' l' t cur' C IH|cur i' l' t cur' N C IH|cur i' e f t cur' C IH|cur i' t cur' C IH|cur t cur' C IH|cur i' a b t cur' C IH]; intros t1 E;
      destruct t1 as [|o t1]; cbn [app] in E; try discriminate.
    - injection E as -> -> _. left. split; [reflexivity|intros j []].
    - injection E as <- ->. apply CONS; [discriminate|]. now apply IH.
    - destruct t1 as [|o' t1]; cbn [app] in E.
      + injection E as <- -> -> _. right. exists [], []. split; [reflexivity|intros j []].
      + injection E as <- <- ->. right. destruct (IH t1 eq_refl) as [[E H]|(a & b & -> & H)].
        * injection E as ->. exists [], (OLine i l' :: t1). split; [reflexivity|]. intros j [X|X]; [discriminate|now apply (H j)].
        * exists (OHeader i' :: OLine i' l' :: a), b. auto.
    - injection E as <- ->. apply CONS; [discriminate|]. now apply IH.
    - injection E as <- ->. apply CONS; [discriminate|]. now apply IH.
    - injection E as <- ->. apply CONS; [discriminate|]. now apply IH.
    - injection E as <- ->. apply CONS; [discriminate|]. now apply IH. }
  destruct (G _ _ C t1 eq_refl) as [[X _]|X]; [discriminate|exact X].
Qed.
Print Assumptions C74_attributable.

(** With the display nothing is announced: the lines go to the boxes of the targets. *)
Theorem C74_display :
  forall strip k xs r t, k_no_ui k = false -> run strip k (s_init k) xs = (r, t) -> forall i, ~ In (OHeader i) t.
Proof.
  intros strip k xs r t U. generalize (s_init k). revert r t. 
  assert (SH : forall i p ls, forall j, ~ In (OHeader j) (snd (show_lines false i p ls))).
  { intros i p ls. revert p. induction ls as [|l ls IH]; intros p j; cbn [show_lines snd andb app]; [intros []|]. intros [X|X]; [discriminate|now apply (IH _ _ X)]. }
  assert (EV : forall s ev r o, event_step k s ev = (r, o) -> forall j, ~ In (OHeader j) o).
  { intros s ev r o E j. unfold event_step in E. destruct (k_n k <=? ev_token ev); [injection E as <- <-; intros []|].
    destruct (nth_error (s_children s) (ev_token ev)) as [[c|]|]; try (injection E as <- <-; intros []).
    destruct (read_event (ch_data c) (ev_reads ev)) as [[d ls]|e|]; try (injection E as <- <-; intros []).
    rewrite U in E. pose proof (SH (ev_token ev) (s_prev s) ls j) as H. destruct (show_lines false (ev_token ev) (s_prev s) ls) as [p' shown]. cbn [fst snd] in *.
    assert (X : forall i a b, ~ In (OHeader j) (shown ++ [OEnd i a b])) by (intros i a b X; apply in_app_or in X as [X|[X|[]]]; [contradiction|discriminate]).
    destruct (ev_closed ev); [|injection E as <- <-; auto]. destruct (ev_deregister ev); [|injection E as <- <-; auto].
    destruct (s_n s); [injection E as <- <-; auto|]. destruct (ev_wait ev) as [b|]; [|injection E as <- <-; auto].
    destruct (negb b); [injection E as <- <-; auto|]. destruct (negb (cd_aborted d)); [injection E as <- <-; auto|].
    destruct (k_exit_code k && negb (cd_time_limit d))%bool; injection E as <- <-; auto. }
  assert (EVS : forall evs s r o, events_steps k s evs = (r, o) -> forall j, ~ In (OHeader j) o).
  { induction evs as [|ev evs IH]; intros s r o E j; cbn [events_steps] in E; [injection E as <- <-; intros []|].
    destruct (event_step k s ev) as [r1 o1] eqn:E1. pose proof (EV _ _ _ _ E1 j). destruct r1 as [s1| |]; [|injection E as <- <-; auto|injection E as <- <-; auto].
    destruct (events_steps k s1 evs) as [r2 o2] eqn:E2. cbn [fst snd] in E. injection E as <- <-. intros X. apply in_app_or in X as [X|X]; [contradiction|]. eapply IH; eauto. }
  assert (ST : forall s x r o, step strip k s x = (r, o) -> forall j, ~ In (OHeader j) o).
  { intros s x r o E j. unfold step in E. destruct (refresh strip (k_no_ui k) (in_size x) (s_n s) (s_children s)) as [[rows cs]|e|]; try (injection E as <- <-; intros []).
    rewrite U in E. cbn [app] in E. assert (O1 : ~ In (OHeader j) [OScreen rows]) by (intros [X|[]]; discriminate).
    assert (O2 : forall a, (forall i, a <> OHeader i) -> ~ In (OHeader j) [OScreen rows; a]) by (intros a N [X|[X|[]]]; [discriminate|now apply (N j)]).
    destruct (List.length (s_failed s) =? k_n k); [injection E as <- <-; auto|].
    destruct ((s_n s <? k_cpus k) && ((s_task s <? k_n k) || negb (sufficient k)))%bool.
    - destruct (mem _ _); [injection E as <- <-; apply O2; discriminate|].
      destruct (nth_error cs (s_task s mod k_n k)) as [[c|]|].
      + destruct (sufficient k); injection E as <- <-; [auto|apply O2; discriminate].
      + destruct ((s_task s <? k_n k) || negb (sufficient k))%bool; [|injection E as <- <-; auto].
        destruct (in_spawn x); injection E as <- <-; [apply O2; discriminate|auto].
      + injection E as <- <-; auto.
    - destruct (s_n s =? 0); [destruct (sufficient k && (k_n k <=? s_task s))%bool; injection E as <- <-; auto|].
      destruct (in_poll x) as [evs|]; [|injection E as <- <-; auto].
      match type of E with context [events_steps k ?s' evs] => destruct (events_steps k s' evs) as [r1 o1] eqn:E1; pose proof (EVS _ _ _ _ E1 j) as H end.
      cbn [fst snd] in E. injection E as <- <-. intros [X|[X|X]]; [discriminate|discriminate|contradiction]. }
  induction xs as [|x xs IH]; intros r t s E i; cbn [run] in E; [injection E as <- <-; intros []|].
  destruct (step strip k s x) as [r1 o1] eqn:E1. pose proof (ST _ _ _ _ E1 i). destruct r1 as [s1| |]; [|injection E as <- <-; auto|injection E as <- <-; auto].
  destruct (run strip k s1 xs) as [r2 o2] eqn:E2. cbn [fst snd] in E. injection E as <- <-. intros X. apply in_app_or in X as [X|X]; [contradiction|]. eapply IH; eauto.
Qed.
Print Assumptions C74_display.

(** Two targets taking turns: the second line of target 1 needs no new name above it. *)
Example C74_example :
  let k := {| k_names := [lit "a"; lit "b"]; k_cpus := 2; k_no_ui := true; k_exit_code := false |} in
  let line i (s : string) := {| ev_token := i; ev_reads := [RData (lit s ++ [ascii_of_nat 10]); RBlock]; ev_closed := false; ev_deregister := true; ev_wait := None |} in
  let x evs := {| in_size := None; in_spawn := true; in_poll := Some evs |} in
  snd (run (fun b => b) k (s_init k) [x []; x []; x [line 1 "p"%string; line 1 "q"%string; line 0 "r"%string]; x [line 1 "s"%string]]) =
    [OStart 0 0 true; OStart 1 1 true; OPoll; OHeader 1; OLine 1 (lit "p"); OLine 1 (lit "q"); OHeader 0; OLine 0 (lit "r"); OPoll; OHeader 1; OLine 1 (lit "s")].
Proof. vm_compute. reflexivity. Qed.
