(** Invariants of the parallel fuzzing loop. *)
From Coq Require Import String List Ascii Bool Arith NArith Lia.
From Verif Require Import Base Utf8 Lines Ui Sched.
Import ListNotations.

(** ** Lists *)

Lemma upd_length A (l : list A) i x : List.length (upd l i x) = List.length l.
Proof. revert i; induction l as [|a l IH]; intros [|i]; simpl; auto. Qed.

Lemma nth_upd A (l : list A) i j x :
  nth_error (upd l i x) j = if Nat.eqb i j then (match nth_error l j with Some _ => Some x | None => None end) else nth_error l j.
Proof.
  revert i j; induction l as [|a l IH]; intros [|i] [|j]; simpl; auto.
  - destruct (i =? j); reflexivity.
Qed.

Lemma n_running_app A (a b : list (option A)) : n_running (a ++ b) = n_running a + n_running b.
Proof. induction a as [|[x|] a IH]; simpl; auto. Qed.

Lemma n_running_some A (l : list (option A)) i x :
  nth_error l i = Some None -> n_running (upd l i (Some x)) = S (n_running l).
Proof.
  revert i; induction l as [|[a|] l IH]; intros [|i]; simpl; try discriminate; auto.
Qed.

Lemma n_running_none A (l : list (option A)) i x :
  nth_error l i = Some (Some x) -> n_running l = S (n_running (upd l i None)).
Proof.
  revert i; induction l as [|[a|] l IH]; intros [|i]; simpl; try discriminate; auto.
Qed.

Lemma n_running_same A (l : list (option A)) i x y :
  nth_error l i = Some (Some x) -> n_running (upd l i (Some y)) = n_running l.
Proof.
  revert i; induction l as [|[a|] l IH]; intros [|i]; simpl; try discriminate; auto.
Qed.

Lemma n_running_repeat A n : n_running (repeat (@None A) n) = 0.
Proof. induction n; simpl; auto. Qed.

Lemma n_running_le A (l : list (option A)) : n_running l <= List.length l.
Proof. induction l as [|[x|] l IH]; simpl; lia. Qed.

Lemma mem_spec i l : mem i l = true <-> In i l.
Proof.
  unfold mem. rewrite existsb_exists. split.
  - intros (x & I & E). apply Nat.eqb_eq in E. now subst.
  - intros I. exists i. split; [exact I|apply Nat.eqb_refl].
Qed.

Lemma insert_spec i l j : In j (insert i l) <-> j = i \/ In j l.
Proof.
  unfold insert. destruct (mem i l) eqn:E.
  - apply mem_spec in E. split; [auto|]. intros [->|H]; auto.
  - rewrite in_app_iff. simpl. intuition.
Qed.

Lemma insert_nodup i l : NoDup l -> NoDup (insert i l).
Proof.
  intros H. unfold insert. destruct (mem i l) eqn:E; [exact H|].
  assert (N : ~ In i l) by (intros I; apply mem_spec in I; congruence).
  clear E. induction l as [|a l IH]; simpl.
  - repeat constructor. intros [].
  - inversion H; subst. constructor.
    + rewrite in_app_iff. simpl. intros [K|[K|[]]]; [contradiction|]. apply N. now left.
    + apply IH; auto. intros I. apply N. now right.
Qed.

(** ** Histories *)

Lemma n_starts_app a b i : n_starts (a ++ b) i = n_starts a i + n_starts b i.
Proof. unfold n_starts. now rewrite filter_app, app_length. Qed.
Lemma n_ends_app a b i : n_ends (a ++ b) i = n_ends a i + n_ends b i.
Proof. unfold n_ends. now rewrite filter_app, app_length. Qed.

Lemma visits_app a b : visits (a ++ b) = visits a ++ visits b.
Proof. induction a as [|[] a IH]; simpl; rewrite ?IH; auto. Qed.

Lemma failed_app a b i : failed (a ++ b) i <-> failed a i \/ failed b i.
Proof.
  unfold failed. split.
  - intros [x H]. apply in_app_iff in H as [H|H]; eauto.
  - intros [[x H]|[x H]]; exists x; apply in_app_iff; auto.
Qed.

Lemma failed_ends t i : failed t i -> n_ends t i <> 0.
Proof.
  intros [b H]. apply in_split in H as (a & c & ->). rewrite n_ends_app.
  unfold n_ends at 2. simpl. rewrite Nat.eqb_refl. simpl. lia.
Qed.

Lemma cur_lines_app a b i : cur_lines (a ++ b) i =
  fold_left (fun acc o => match o with
                          | OStart j _ _ => if j =? i then [] else acc
                          | OLine j l => if j =? i then acc ++ [l] else acc
                          | _ => acc
                          end) b (cur_lines a i).
Proof. unfold cur_lines. apply fold_left_app. Qed.

Lemma legal_snoc k t o : legal k (t ++ [o]) <-> legal k t /\ legal_ev k t o.
Proof.
  split.
  - intros H. split; [|apply (H t o []); reflexivity].
    intros a b c ->. apply (H a b (c ++ [o])). rewrite <- app_assoc. reflexivity.
  - intros [H1 H2] a b c E.
    destruct c as [|d c] using rev_ind.
    + apply app_inj_tail in E as [-> ->]. exact H2.
    + clear IHc. change (a ++ b :: c ++ [d]) with (a ++ (b :: c) ++ [d]) in E. rewrite app_assoc in E.
      apply app_inj_tail in E as [-> ->]. apply (H1 a b c). reflexivity.
Qed.

Lemma legal_nil k : legal k [].
Proof. intros a o t' E. destruct a; discriminate. Qed.

(** Outputs that do not matter for the bookkeeping. *)
Definition quiet (o : out) : Prop := match o with OScreen _ | OPoll => True | _ => False end.

Lemma quiet_facts q t i : Forall quiet q ->
  n_starts (t ++ q) i = n_starts t i /\ n_ends (t ++ q) i = n_ends t i /\ visits (t ++ q) = visits t /\
  (failed (t ++ q) i <-> failed t i) /\ cur_lines (t ++ q) i = cur_lines t i.
Proof.
  intros F. rewrite n_starts_app, n_ends_app, visits_app, failed_app, cur_lines_app.
  assert (H : n_starts q i = 0 /\ n_ends q i = 0 /\ visits q = [] /\ ~ failed q i /\
    forall acc, fold_left (fun acc o => match o with
                          | OStart j _ _ => if j =? i then [] else acc
                          | OLine j l => if j =? i then acc ++ [l] else acc
                          | _ => acc
                          end) q acc = acc).
  { induction F as [|u q Q F (A & B & C & D & E)].
    - repeat split; auto. intros [b []].
    - destruct u; simpl in Q; try contradiction; (repeat split; auto; [intros [b [K|K]]; [discriminate|apply D; exists b; exact K]]). }
  destruct H as (-> & -> & -> & N & E). rewrite E, app_nil_r. repeat split; auto; try lia; tauto.
Qed.

Lemma quiet_legal k q t : Forall quiet q -> legal k t -> legal k (t ++ q).
Proof.
  intros F. revert t. induction F as [|o q Q F IH]; intros t L; [now rewrite app_nil_r|].
  change (o :: q) with ([o] ++ q). rewrite app_assoc. apply IH. apply legal_snoc. split; [exact L|].
  destruct o; simpl in Q; try contradiction; exact I.
Qed.

(** Printing the lines of one event. *)
Lemma show_lines_facts no_ui i ls : forall prev t j,
  let o := snd (show_lines no_ui i prev ls) in
  n_starts (t ++ o) j = n_starts t j /\ n_ends (t ++ o) j = n_ends t j /\ visits (t ++ o) = visits t /\
  (failed (t ++ o) j <-> failed t j) /\
  cur_lines (t ++ o) j = (if i =? j then cur_lines t j ++ ls else cur_lines t j).
Proof.
  induction ls as [|l ls IH]; intros prev t j; cbn [show_lines snd].
  - rewrite app_nil_r. repeat split; auto. destruct (i =? j); [now rewrite app_nil_r|reflexivity].
  - cbv zeta in *. set (hd := if no_ui && negb (prev =? i) then [OHeader i] else []).
    change (hd ++ OLine i l :: snd (show_lines no_ui i i ls)) with (hd ++ [OLine i l] ++ snd (show_lines no_ui i i ls)).
    rewrite !app_assoc.
    destruct (IH i ((t ++ hd) ++ [OLine i l]) j) as (A & B & C & D & E).
    rewrite A, B, C, D, E. clear A B C D E.
    rewrite !n_starts_app, !n_ends_app, !visits_app, !failed_app, !cur_lines_app.
    assert (H : n_starts hd j = 0 /\ n_ends hd j = 0 /\ visits hd = [] /\ ~ failed hd j /\
      forall acc, fold_left (fun acc o => match o with
                          | OStart j' _ _ => if j' =? j then [] else acc
                          | OLine j' l => if j' =? j then acc ++ [l] else acc
                          | _ => acc
                          end) hd acc = acc).
    { unfold hd. destruct (no_ui && negb (prev =? i)); repeat split; auto; intros [b K]; simpl in K; intuition discriminate. }
    destruct H as (-> & -> & -> & N & ->). cbn [fold_left]. change (n_starts [OLine i l] j) with 0. change (n_ends [OLine i l] j) with 0. simpl visits.
    repeat split; try lia.
    + now rewrite !app_nil_r.
    + intros [[H|H]|[b [H|[]]]]; [exact H|contradiction|discriminate].
    + tauto.
    + destruct (i =? j); [|reflexivity]. now rewrite <- app_assoc.
Qed.

Lemma show_lines_legal k no_ui i ls : forall prev t,
  legal k t -> i < k_n k -> live t i = 1 -> legal k (t ++ snd (show_lines no_ui i prev ls)).
Proof.
  induction ls as [|l ls IH]; intros prev t L Hi Hl; cbn [show_lines snd]; [now rewrite app_nil_r|].
  cbv zeta. set (hd := if no_ui && negb (prev =? i) then [OHeader i] else []).
  change (hd ++ OLine i l :: snd (show_lines no_ui i i ls)) with (hd ++ [OLine i l] ++ snd (show_lines no_ui i i ls)).
  rewrite !app_assoc.
  assert (Lh : legal k (t ++ hd) /\ live (t ++ hd) i = 1).
  { unfold hd. destruct (no_ui && negb (prev =? i)).
    - split; [apply legal_snoc; split; [exact L|split; assumption]|].
      unfold live in *. rewrite n_starts_app, n_ends_app. change (n_starts [OHeader i] i) with 0. change (n_ends [OHeader i] i) with 0. lia.
    - rewrite app_nil_r. auto. }
  destruct Lh as [Lh Hlh]. apply IH; [|exact Hi|].
  - apply legal_snoc. split; [exact Lh|]. split; assumption.
  - unfold live in *. rewrite n_starts_app, n_ends_app. change (n_starts [OLine i l] i) with 0. change (n_ends [OLine i l] i) with 0. lia.
Qed.

(** ** The invariant *)

Definition child_ok (k : cfg) (t : list out) (i : nat) (c : child) : Prop :=
  n_starts t i = S (n_ends t i) /\
  cd_time_limit (ch_data c) = has_line time_limit_marker (cur_lines t i) /\
  cd_aborted (ch_data c) = has_line aborted_marker (cur_lines t i) /\
  ch_target c = name_at k i /\ ~ In LF (cd_unprinted (ch_data c)).

Record inv (k : cfg) (s : sstate) (t : list out) : Prop := {
  i_len : List.length (s_children s) = k_n k;
  i_n : s_n s = n_running (s_children s);
  i_cpus : s_n s <= k_cpus k;
  i_iter : s_iter s = s_task s mod k_n k;
  i_failed : forall i, In i (s_failed s) <-> failed t i;
  i_failed_nd : NoDup (s_failed s);
  i_failed_lt : forall i, In i (s_failed s) -> i < k_n k;
  i_failed_none : forall i, In i (s_failed s) -> nth_error (s_children s) i = Some None;
  i_children : forall i o, nth_error (s_children s) i = Some o ->
    match o with Some c => child_ok k t i c | None => n_starts t i = n_ends t i end;
  i_beyond : forall i, k_n k <= i -> n_starts t i = 0 /\ n_ends t i = 0;
  i_task : forall i, i < k_n k -> (n_starts t i = 0 <-> s_task s <= i);
  i_suff : k_n k <= k_cpus k -> s_task s <= k_n k /\ forall i, n_starts t i <= 1;
  i_visits : visits t = map (fun a => a mod k_n k) (seq 0 (s_task s));
  i_legal : legal k t;
}.

Lemma inv_init k : inv k (s_init k) [].
Proof.
  constructor; simpl.
  - apply repeat_length.
  - symmetry. apply n_running_repeat.
  - lia.
  - destruct (k_n k); [reflexivity|symmetry; apply Nat.mod_0_l; lia].
  - intros i. split; [intros []|intros [b []]].
  - constructor.
  - intros i [].
  - intros i [].
  - intros i o H. apply nth_error_In in H. apply repeat_spec in H. subst o. reflexivity.
  - auto.
  - intros i H. unfold n_starts. simpl. split; [lia|reflexivity].
  - intros _. split; [lia|]. intros i. unfold n_starts. simpl. lia.
  - reflexivity.
  - apply legal_nil.
Qed.

Lemma live_children k s t i :
  inv k s t -> i < k_n k ->
  live t i = match nth_error (s_children s) i with Some (Some _) => 1 | _ => 0 end.
Proof.
  intros I H. unfold live. destruct (nth_error (s_children s) i) as [o|] eqn:E.
  - pose proof (i_children _ _ _ I i o E) as C. destruct o as [c|]; [destruct C as [C _]|]; lia.
  - apply nth_error_None in E. rewrite (i_len _ _ _ I) in E. lia.
Qed.

Lemma live_total_children k s t : inv k s t -> live_total t (k_n k) = s_n s.
Proof.
  intros I. rewrite (i_n _ _ _ I).
  assert (G : forall n, n <= List.length (s_children s) -> live_total t n = n_running (firstn n (s_children s))).
  { induction n as [|n IH]; intros H; [reflexivity|]. cbn [live_total]. rewrite IH by lia.
    destruct (nth_error (s_children s) n) as [o|] eqn:E; [|apply nth_error_None in E; lia].
    assert (F : firstn (S n) (s_children s) = firstn n (s_children s) ++ [o]).
    { clear - E. revert n E. induction (s_children s) as [|a l IH]; intros [|n] E; simpl in *; try discriminate; [congruence|].
      f_equal. now apply IH. }
    rewrite F, n_running_app. rewrite (live_children k s t n I) by (rewrite <- (i_len _ _ _ I); lia). rewrite E.
    destruct o; reflexivity. }
  rewrite <- (i_len _ _ _ I), G by lia. now rewrite firstn_all.
Qed.

(** Redrawing keeps the invariant. *)
Lemma inv_redraw k s t cs q :
  inv k s t -> Forall2 same_child (s_children s) cs -> Forall quiet q ->
  inv k {| s_children := cs; s_n := s_n s; s_task := s_task s; s_iter := s_iter s; s_failed := s_failed s; s_prev := s_prev s |} (t ++ q).
Proof.
  intros I F Q.
  assert (N : n_running (s_children s) = n_running cs).
  { clear - F. induction F as [|[a|] [b|] l l' H F IH]; simpl in *; auto; contradiction. }
  assert (T : forall i o', nth_error cs i = Some o' -> exists o, nth_error (s_children s) i = Some o /\ same_child o o').
  { clear - F. induction F as [|a b l l' H F IH]; intros [|i] o' E; simpl in *; try discriminate.
    - injection E as <-. eauto.
    - apply IH in E. exact E. }
  constructor; cbn [s_children s_n s_task s_iter s_failed s_prev].
  - rewrite <- (i_len _ _ _ I). symmetry. eapply Forall2_len. exact F.
  - rewrite <- N. apply (i_n _ _ _ I).
  - apply (i_cpus _ _ _ I).
  - apply (i_iter _ _ _ I).
  - intros i. destruct (quiet_facts q t i Q) as (_ & _ & _ & E & _). rewrite E. apply (i_failed _ _ _ I).
  - apply (i_failed_nd _ _ _ I).
  - apply (i_failed_lt _ _ _ I).
  - intros i H. pose proof (i_failed_none _ _ _ I i H) as E.
    destruct (nth_error cs i) as [o'|] eqn:E'.
    + destruct (T _ _ E') as (o & Eo & S). rewrite E in Eo. injection Eo as <-. destruct o'; [contradiction|reflexivity].
    + apply nth_error_None in E'. pose proof (nth_error_Some (s_children s) i) as [K _].
      assert (nth_error (s_children s) i <> None) by congruence. apply K in H0. apply Forall2_len in F. lia.
  - intros i o' E'. destruct (T _ _ E') as (o & Eo & S). pose proof (i_children _ _ _ I i o Eo) as C.
    destruct (quiet_facts q t i Q) as (A1 & A2 & _ & _ & A5).
    destruct o as [c|], o' as [c'|]; simpl in S; try contradiction.
    + destruct S as (S1 & S2 & _). unfold child_ok in *. rewrite A1, A2, A5, <- S1, <- S2. exact C.
    + rewrite A1, A2. exact C.
  - intros i H. destruct (quiet_facts q t i Q) as (A1 & A2 & _). rewrite A1, A2. now apply (i_beyond _ _ _ I).
  - intros i H. destruct (quiet_facts q t i Q) as (A1 & _). rewrite A1. now apply (i_task _ _ _ I).
  - intros H. destruct (i_suff _ _ _ I H) as [B1 B2]. split; [exact B1|]. intros i.
    destruct (quiet_facts q t i Q) as (A1 & _). rewrite A1. apply B2.
  - destruct (quiet_facts q t 0 Q) as (_ & _ & A3 & _). rewrite A3. apply (i_visits _ _ _ I).
  - apply quiet_legal; [exact Q|apply (i_legal _ _ _ I)].
Qed.

(** One event keeps the invariant; the history stays legal even if the session ends. *)
Lemma read_event_facts d rs d' ls :
  read_event d rs = Ret (d', ls) -> ~ In LF (cd_unprinted d) ->
  cd_time_limit d' = has_line time_limit_marker ls || cd_time_limit d /\
  cd_aborted d' = has_line aborted_marker ls || cd_aborted d /\ ~ In LF (cd_unprinted d').
Proof.
  intros H N.
  assert (D : readable rs \/ ~ readable rs).
  { clear. induction rs as [|[[|c b]| | |] rs IH]; simpl; auto. }
  destruct D as [D|D].
  - destruct (splits_exists (cd_unprinted d ++ delivered rs)) as (a & b & S).
    rewrite (read_event_spec d rs a b D S) in H. destruct (valid_utf8 a); [|discriminate].
    injection H as <- <-. cbn [cd_time_limit cd_aborted cd_unprinted]. repeat split; auto. apply S.
  - unfold read_event, read_lines in H. rewrite (read_loop_err _ _ D) in H. discriminate.
Qed.

Lemma event_step_inv k s t ev r o :
  inv k s t -> event_step k s ev = (r, o) ->
  legal k (t ++ o) /\ match r with Go s' => inv k s' (t ++ o) /\ s_task s' = s_task s | _ => True end.
Proof.
  intros I. unfold event_step. set (i := ev_token ev).
  destruct (k_n k <=? i) eqn:Ei.
  { intros [= <- <-]. rewrite app_nil_r. split; [apply (i_legal _ _ _ I)|exact Logic.I]. }
  apply Nat.leb_gt in Ei.
  destruct (nth_error (s_children s) i) as [[c|]|] eqn:Ec.
  2, 3: intros [= <- <-]; rewrite app_nil_r; split; [apply (i_legal _ _ _ I)|exact Logic.I].
  destruct (read_event (ch_data c) (ev_reads ev)) as [[d ls]| |] eqn:Er.
  2, 3: intros [= <- <-]; rewrite app_nil_r; split; [apply (i_legal _ _ _ I)|exact Logic.I].
  pose proof (i_children _ _ _ I i _ Ec) as (C1 & C2 & C3 & C4 & C5).
  destruct (read_event_facts _ _ _ _ Er C5) as (R1 & R2 & R3).
  cbv zeta. set (sh := show_lines (k_no_ui k) i (s_prev s) ls).
  assert (Hlive : live t i = 1) by (unfold live; clear - C1; lia).
  assert (Lsh : legal k (t ++ snd sh)).
  { apply show_lines_legal; [apply (i_legal _ _ _ I)|exact Ei|exact Hlive]. }
  assert (Fsh := fun j => show_lines_facts (k_no_ui k) i ls (s_prev s) t j). cbv zeta in Fsh. fold sh in Fsh.
  assert (M1 : has_line time_limit_marker (cur_lines (t ++ snd sh) i) = cd_time_limit d).
  { destruct (Fsh i) as (_ & _ & _ & _ & E). rewrite E, Nat.eqb_refl, has_line_app, R1, C2. apply orb_comm. }
  assert (M2 : has_line aborted_marker (cur_lines (t ++ snd sh) i) = cd_aborted d).
  { destruct (Fsh i) as (_ & _ & _ & _ & E). rewrite E, Nat.eqb_refl, has_line_app, R2, C3. apply orb_comm. }
  destruct (ev_closed ev).
  2: { (* not closed: the child stays *)
    intros [= <- <-]. split; [exact Lsh|]. split; [|reflexivity].
    constructor; cbn [s_children s_n s_task s_iter s_failed s_prev].
    - rewrite upd_length. apply (i_len _ _ _ I).
    - rewrite (n_running_same _ _ _ _ _ Ec). apply (i_n _ _ _ I).
    - apply (i_cpus _ _ _ I).
    - apply (i_iter _ _ _ I).
    - intros j. destruct (Fsh j) as (_ & _ & _ & E & _). rewrite E. apply (i_failed _ _ _ I).
    - apply (i_failed_nd _ _ _ I).
    - apply (i_failed_lt _ _ _ I).
    - intros j H. rewrite nth_upd. pose proof (i_failed_none _ _ _ I j H) as E.
      destruct (i =? j) eqn:Eij; [apply Nat.eqb_eq in Eij; subst; congruence|exact E].
    - intros j o' H. rewrite nth_upd in H. destruct (Fsh j) as (A1 & A2 & _ & _ & A5).
      destruct (i =? j) eqn:Eij.
      + apply Nat.eqb_eq in Eij. rewrite <- Eij in *. rewrite Ec in H. injection H as <-.
        unfold child_ok. cbn [ch_data ch_target]. rewrite A1, A2, M1, M2. repeat split; auto.
      + pose proof (i_children _ _ _ I j o' H) as Cj. destruct o' as [c'|]; [|congruence].
        unfold child_ok in *. rewrite A1, A2, A5. exact Cj.
    - intros j H. destruct (Fsh j) as (A1 & A2 & _). rewrite A1, A2. now apply (i_beyond _ _ _ I).
    - intros j H. destruct (Fsh j) as (A1 & _). rewrite A1. now apply (i_task _ _ _ I).
    - intros H. destruct (i_suff _ _ _ I H) as [B1 B2]. split; [exact B1|]. intros j.
      destruct (Fsh j) as (A1 & _). rewrite A1. apply B2.
    - destruct (Fsh 0) as (_ & _ & A3 & _). rewrite A3. apply (i_visits _ _ _ I).
    - exact Lsh. }
  destruct (ev_deregister ev).
  2: { intros [= <- <-]. split; [exact Lsh|exact Logic.I]. }
  destruct (s_n s) as [|n'] eqn:En.
  { intros [= <- <-]. split; [exact Lsh|exact Logic.I]. }
  destruct (ev_wait ev) as [success|].
  2: { intros [= <- <-]. split; [exact Lsh|exact Logic.I]. }
  assert (Hlive' : live (t ++ snd sh) i = 1).
  { unfold live. destruct (Fsh i) as (A1 & A2 & _). rewrite A1, A2. exact Hlive. }
  (* common part: the state after the end *)
  assert (K : forall bad f,
     bad = negb success || negb (cd_aborted d) ->
     (f = if bad then insert i (s_failed s) else s_failed s) ->
     inv k {| s_children := upd (s_children s) i None; s_n := n'; s_task := s_task s; s_iter := s_iter s;
              s_failed := f; s_prev := fst sh |} ((t ++ snd sh) ++ [OEnd i success bad])).
  { intros bad f Hb Hf.
    assert (Li : legal k ((t ++ snd sh) ++ [OEnd i success bad])).
    { apply legal_snoc. split; [exact Lsh|]. split; [exact Ei|]. split; [exact Hlive'|]. rewrite M2. exact Hb. }
    clear Hb M1 M2 C2 C3 R1 R2.
    assert (S1 : forall j, n_starts ((t ++ snd sh) ++ [OEnd i success bad]) j = n_starts t j).
    { intros j. rewrite n_starts_app. destruct (Fsh j) as (A1 & _). rewrite A1. unfold n_starts at 2. simpl. lia. }
    assert (E1 : forall j, n_ends ((t ++ snd sh) ++ [OEnd i success bad]) j = n_ends t j + (if i =? j then 1 else 0)).
    { intros j. rewrite n_ends_app. destruct (Fsh j) as (_ & A2 & _). rewrite A2. unfold n_ends at 2. simpl.
      destruct (i =? j); reflexivity. }
    assert (F1 : forall j, failed ((t ++ snd sh) ++ [OEnd i success bad]) j <-> (bad = true /\ j = i) \/ failed t j).
    { intros j. rewrite failed_app. destruct (Fsh j) as (_ & _ & _ & A4 & _). rewrite A4.
      assert (P : failed [OEnd i success bad] j <-> bad = true /\ j = i).
      { split; [intros [b [[= -> -> ->]|[]]]; auto|]. intros [-> ->]. exists success. now left. }
      rewrite P. tauto. }
    constructor; cbn [s_children s_n s_task s_iter s_failed s_prev].
    - rewrite upd_length. apply (i_len _ _ _ I).
    - pose proof (n_running_none _ _ _ _ Ec) as H. pose proof (i_n _ _ _ I) as H'. lia.
    - pose proof (i_cpus _ _ _ I). lia.
    - apply (i_iter _ _ _ I).
    - intros j. rewrite F1, <- (i_failed _ _ _ I j). subst f. destruct bad; [rewrite insert_spec; intuition|].
      split; [auto|]. intros [[H _]|H]; [discriminate|exact H].
    - subst f. destruct bad; [apply insert_nodup|]; apply (i_failed_nd _ _ _ I).
    - intros j H. subst f. destruct bad; [apply insert_spec in H as [->|H]|]; auto; now apply (i_failed_lt _ _ _ I).
    - intros j H. rewrite nth_upd. destruct (i =? j) eqn:Eij.
      + apply Nat.eqb_eq in Eij. rewrite <- Eij. rewrite Ec. reflexivity.
      + apply Nat.eqb_neq in Eij. apply (i_failed_none _ _ _ I). subst f. destruct bad; [|exact H].
        apply insert_spec in H as [->|H]; [contradiction|exact H].
    - intros j o' H. rewrite nth_upd in H. rewrite S1, E1. destruct (i =? j) eqn:Eij.
      + apply Nat.eqb_eq in Eij. rewrite <- Eij in *. rewrite Ec in H. injection H as <-. lia.
      + rewrite Nat.add_0_r. pose proof (i_children _ _ _ I j o' H) as Cj. destruct o' as [c'|]; [|exact Cj].
        unfold child_ok in *. rewrite S1, E1, Eij, Nat.add_0_r, cur_lines_app. cbn [fold_left].
        destruct (Fsh j) as (_ & _ & _ & _ & A5). rewrite A5, Eij. exact Cj.
    - intros j H. rewrite S1, E1. destruct (i =? j) eqn:Eij; [apply Nat.eqb_eq in Eij; lia|].
      rewrite Nat.add_0_r. now apply (i_beyond _ _ _ I).
    - intros j H. rewrite S1. now apply (i_task _ _ _ I).
    - intros H. destruct (i_suff _ _ _ I H) as [B1 B2]. split; [exact B1|]. intros j. rewrite S1. apply B2.
    - rewrite visits_app. cbn [visits]. rewrite app_nil_r. destruct (Fsh 0) as (_ & _ & A3 & _). rewrite A3. apply (i_visits _ _ _ I).
    - exact Li. }
  destruct success; cbn [negb].
  - destruct (cd_aborted d) eqn:Ea; cbn [negb].
    + destruct (k_exit_code k && negb (cd_time_limit d)); intros [= <- <-]; rewrite app_assoc.
      * split; [|exact Logic.I]. apply (i_legal _ _ _ (K false (s_failed s) eq_refl eq_refl)).
      * pose proof (K false (s_failed s) eq_refl eq_refl) as J. split; [apply (i_legal _ _ _ J)|]. split; [exact J|reflexivity].
    + intros [= <- <-]. rewrite app_assoc. pose proof (K true _ eq_refl eq_refl) as J.
      split; [apply (i_legal _ _ _ J)|]. split; [exact J|reflexivity].
  - intros [= <- <-]. rewrite app_assoc. pose proof (K true _ eq_refl eq_refl) as J.
    split; [apply (i_legal _ _ _ J)|]. split; [exact J|reflexivity].
Qed.

Lemma events_steps_inv k evs : forall s t r o,
  inv k s t -> events_steps k s evs = (r, o) ->
  legal k (t ++ o) /\ match r with Go s' => inv k s' (t ++ o) /\ s_task s' = s_task s | _ => True end.
Proof.
  induction evs as [|ev evs IH]; intros s t r o I; cbn [events_steps].
  - intros [= <- <-]. rewrite app_nil_r. split; [apply (i_legal _ _ _ I)|auto].
  - destruct (event_step k s ev) as [r1 o1] eqn:E1.
    destruct (event_step_inv k s t ev r1 o1 I E1) as [L1 I1].
    destruct r1 as [s1|oc|].
    + destruct (events_steps k s1 evs) as [r2 o2] eqn:E2. cbn [fst snd]. intros [= <- <-]. rewrite app_assoc.
      destruct I1 as [I1 T1]. destruct (IH s1 (t ++ o1) r2 o2 I1 E2) as [L2 I2]. split; [exact L2|].
      destruct r2; auto. destruct I2 as [I2 T2]. split; [exact I2|congruence].
    + intros [= <- <-]. split; [exact L1|exact Logic.I].
    + intros [= <- <-]. split; [exact L1|exact Logic.I].
Qed.

Section Step.
  Variable strip : bytes -> bytes.

  Lemma iter_next n t i : 0 < n -> i = t mod n -> (if S i =? n then 0 else S i) = S t mod n.
  Proof.
    intros Hn ->. pose proof (Nat.mod_upper_bound t n). 
    assert (E : S t mod n = S (t mod n) mod n).
    { rewrite <- (Nat.add_1_r t), <- (Nat.add_1_r (t mod n)). rewrite Nat.add_mod_idemp_l by lia. reflexivity. }
    rewrite E. destruct (S (t mod n) =? n) eqn:D.
    - apply Nat.eqb_eq in D. rewrite D. symmetry. apply Nat.mod_same. lia.
    - apply Nat.eqb_neq in D. symmetry. apply Nat.mod_small. lia.
  Qed.

  Lemma visits_next t n : map (fun a => a mod n) (seq 0 (S t)) = map (fun a => a mod n) (seq 0 t) ++ [t mod n].
  Proof. rewrite seq_S, map_app. reflexivity. Qed.

  Lemma step_inv k s t x r o :
    inv k s t -> step strip k s x = (r, o) ->
    legal k (t ++ o) /\ match r with Go s' => inv k s' (t ++ o) | _ => True end.
  Proof.
    intros I. unfold step.
    destruct (refresh strip (k_no_ui k) (in_size x) (s_n s) (s_children s)) as [[rows cs]| |] eqn:R.
    2, 3: intros [= <- <-]; rewrite app_nil_r; split; [apply (i_legal _ _ _ I)|exact Logic.I].
    pose proof (refresh_same _ _ _ _ _ _ _ R) as F. clear R.
    cbv zeta. set (scr := if k_no_ui k then [] else [OScreen rows]).
    assert (Q : Forall quiet scr) by (unfold scr; destruct (k_no_ui k); repeat constructor).
    clearbody scr.
    pose proof (inv_redraw k s t cs scr I F Q) as J.
    set (s0 := {| s_children := cs; s_n := s_n s; s_task := s_task s; s_iter := s_iter s; s_failed := s_failed s; s_prev := s_prev s |}) in *.
    assert (L0 : legal k (t ++ scr)) by apply (i_legal _ _ _ J).
    destruct (List.length (s_failed s) =? k_n k) eqn:Ef.
    { intros [= <- <-]. split; [exact L0|exact Logic.I]. }
    apply Nat.eqb_neq in Ef.
    assert (Hn : 0 < k_n k).
    { destruct (k_n k) eqn:En; [|lia]. exfalso. apply Ef. destruct (s_failed s) as [|a l] eqn:El; [reflexivity|].
      assert (a < 0); [|lia]. rewrite <- En. apply (i_failed_lt _ _ _ I). rewrite El. now left. }
    destruct ((s_n s <? k_cpus k) && ((s_task s <? k_n k) || negb (sufficient k))) eqn:Ew.
    - apply andb_true_iff in Ew as [Ew1 Ew2]. apply Nat.ltb_lt in Ew1.
      pose proof (iter_next (k_n k) (s_task s) (s_iter s) Hn (i_iter _ _ _ I)) as Hit.
      set (iter' := if S (s_iter s) =? k_n k then 0 else S (s_iter s)) in *.
      set (i := s_task s mod k_n k) in *.
      assert (Hi : i < k_n k) by (apply Nat.mod_upper_bound; lia).
      assert (Hv : i = List.length (visits (t ++ scr)) mod k_n k).
      { rewrite (i_visits _ _ _ J), map_length, seq_length. reflexivity. }
      (* skipping keeps the invariant *)
      assert (K : (failed (t ++ scr) i \/ live (t ++ scr) i = 1) -> n_starts (t ++ scr) i <> 0 ->
        inv k {| s_children := cs; s_n := s_n s; s_task := S (s_task s); s_iter := iter'; s_failed := s_failed s; s_prev := s_prev s |}
            ((t ++ scr) ++ [OSkip i])).
      { intros Hs Hns.
        assert (Ht : k_n k <= s_task s).
        { destruct (le_lt_dec (k_n k) (s_task s)) as [H|H]; [exact H|]. exfalso. apply Hns.
          apply (i_task _ _ _ J i Hi). cbn [s_task s0]. unfold i. rewrite Nat.mod_small by exact H. lia. }
        assert (Hc : k_cpus k < k_n k).
        { destruct (le_lt_dec (k_n k) (k_cpus k)) as [H|H]; [|exact H]. exfalso.
          assert (sufficient k = true) as S by (apply Nat.leb_le; exact H). rewrite S in Ew2.
          rewrite orb_false_r in Ew2. apply Nat.ltb_lt in Ew2. lia. }
        assert (T : forall j, n_starts ((t ++ scr) ++ [OSkip i]) j = n_starts (t ++ scr) j /\
                    n_ends ((t ++ scr) ++ [OSkip i]) j = n_ends (t ++ scr) j /\
                    (failed ((t ++ scr) ++ [OSkip i]) j <-> failed (t ++ scr) j) /\
                    cur_lines ((t ++ scr) ++ [OSkip i]) j = cur_lines (t ++ scr) j).
        { intros j. rewrite n_starts_app, n_ends_app, failed_app, cur_lines_app. simpl. repeat split; try (unfold n_starts, n_ends; simpl; lia).
          - intros [H|[b [H|[]]]]; [exact H|discriminate].
          - auto. }
        constructor; cbn [s_children s_n s_task s_iter s_failed s_prev].
        - apply (i_len _ _ _ J).
        - apply (i_n _ _ _ J).
        - apply (i_cpus _ _ _ J).
        - exact Hit.
        - intros j. destruct (T j) as (_ & _ & E & _). rewrite E. apply (i_failed _ _ _ J).
        - apply (i_failed_nd _ _ _ J).
        - apply (i_failed_lt _ _ _ J).
        - apply (i_failed_none _ _ _ J).
        - intros j o' H. pose proof (i_children _ _ _ J j o' H) as C. destruct (T j) as (A1 & A2 & _ & A4).
          destruct o'; unfold child_ok in *; rewrite A1, A2, ?A4; exact C.
        - intros j H. destruct (T j) as (A1 & A2 & _). rewrite A1, A2. now apply (i_beyond _ _ _ J).
        - intros j H. destruct (T j) as (A1 & _). rewrite A1, (i_task _ _ _ J j H). cbn [s_task s0]. lia.
        - intros H. lia.
        - rewrite visits_app, visits_next. cbn [visits]. f_equal. apply (i_visits _ _ _ J).
        - apply legal_snoc. split; [exact L0|]. repeat split; auto. }
      assert (Fail : mem i (s_failed s) = true -> failed (t ++ scr) i /\ n_starts (t ++ scr) i <> 0).
      { intros H. apply mem_spec in H. pose proof (proj1 (i_failed _ _ _ J i) H) as Hf. split; [exact Hf|].
        pose proof (i_children _ _ _ J i _ (i_failed_none _ _ _ J i H)) as C. cbn in C. apply failed_ends in Hf. lia. }
      destruct (mem i (s_failed s)) eqn:Em.
      { destruct (Fail eq_refl) as [Hf Hns]. intros [= <- <-]. rewrite app_assoc.
        pose proof (K (or_introl Hf) Hns) as J'. split; [apply (i_legal _ _ _ J')|exact J']. }
      destruct (nth_error cs i) as [[c|]|] eqn:Ec.
      + destruct (sufficient k) eqn:Es.
        { intros [= <- <-]. split; [exact L0|exact Logic.I]. }
        intros [= <- <-]. rewrite app_assoc.
        pose proof (i_children _ _ _ J i _ Ec) as (C1 & _).
        assert (Hl : live (t ++ scr) i = 1) by (unfold live; lia).
        pose proof (K (or_intror Hl)) as J'. assert (n_starts (t ++ scr) i <> 0) as Hns by lia. specialize (J' Hns).
        split; [apply (i_legal _ _ _ J')|exact J'].
      + destruct ((s_task s <? k_n k) || negb (sufficient k)) eqn:E2; [|discriminate].
        destruct (in_spawn x).
        2: { intros [= <- <-]. split; [exact L0|exact Logic.I]. }
        intros [= <- <-]. rewrite app_assoc.
        pose proof (i_children _ _ _ J i _ Ec) as C. cbn in C.
        assert (Hie : s_iter s = i) by apply (i_iter _ _ _ I).
        set (first := s_task s <? k_n k) in *.
        assert (Hfirst : first = true <-> n_starts (t ++ scr) i = 0).
        { rewrite (i_task _ _ _ J i Hi). cbn [s_task s0]. unfold first. rewrite Nat.ltb_lt. split.
          - intros H. unfold i. rewrite Nat.mod_small by exact H. lia.
          - intros H. eapply Nat.le_lt_trans; [exact H|exact Hi]. }
        assert (Hsuff : k_n k <= k_cpus k -> first = true).
        { intros H. assert (sufficient k = true) as S by (apply Nat.leb_le; exact H).
          rewrite S in E2. now rewrite orb_false_r in E2. }
        assert (L1 : legal k ((t ++ scr) ++ [OStart i (s_iter s) first])).
        { apply legal_snoc. split; [exact L0|].
          repeat split; auto.
          - unfold live. lia.
          - intros H. apply (i_failed _ _ _ J) in H. cbn [s_failed s0] in H. apply mem_spec in H. congruence.
          - rewrite (live_total_children _ _ _ J). exact Ew1.
          - apply Hfirst.
          - apply Hfirst. }
        split; [exact L1|].
        assert (T : forall j, n_starts ((t ++ scr) ++ [OStart i (s_iter s) first]) j = n_starts (t ++ scr) j + (if i =? j then 1 else 0) /\
                    n_ends ((t ++ scr) ++ [OStart i (s_iter s) first]) j = n_ends (t ++ scr) j /\
                    (failed ((t ++ scr) ++ [OStart i (s_iter s) first]) j <-> failed (t ++ scr) j) /\
                    cur_lines ((t ++ scr) ++ [OStart i (s_iter s) first]) j = if i =? j then [] else cur_lines (t ++ scr) j).
        { intros j. rewrite n_starts_app, n_ends_app, failed_app, cur_lines_app. cbn [fold_left]. repeat split.
          - unfold n_starts at 2. simpl. destruct (i =? j); reflexivity.
          - unfold n_ends at 2. simpl. lia.
          - intros [H|[b [H|[]]]]; [exact H|discriminate].
          - auto. }
        constructor; cbn [s_children s_n s_task s_iter s_failed s_prev].
        * rewrite upd_length. apply (i_len _ _ _ J).
        * rewrite (n_running_some _ _ _ _ Ec). f_equal. apply (i_n _ _ _ J).
        * lia.
        * exact Hit.
        * intros j. destruct (T j) as (_ & _ & E & _). rewrite E. apply (i_failed _ _ _ J).
        * apply (i_failed_nd _ _ _ J).
        * apply (i_failed_lt _ _ _ J).
        * intros j H. rewrite nth_upd. destruct (i =? j) eqn:Eij; [|apply (i_failed_none _ _ _ J j H)].
          apply Nat.eqb_eq in Eij. subst j. apply mem_spec in H. congruence.
        * intros j o' H. rewrite nth_upd in H. destruct (T j) as (A1 & A2 & _ & A4). destruct (i =? j) eqn:Eij.
          -- apply Nat.eqb_eq in Eij. subst j. rewrite Ec in H. injection H as <-. unfold child_ok.
             rewrite A1, A2, A4. cbn [new_child ch_data ch_target cd_init cd_time_limit cd_aborted cd_unprinted].
             repeat split; auto; try lia; now rewrite Hie.
          -- pose proof (i_children _ _ _ J j o' H) as Cj.
             destruct o'; unfold child_ok in *; rewrite A1, A2, ?A4, Nat.add_0_r; exact Cj.
        * intros j H. destruct (T j) as (A1 & A2 & _). rewrite A1, A2.
          destruct (i =? j) eqn:Eij; [apply Nat.eqb_eq in Eij; lia|]. rewrite Nat.add_0_r. now apply (i_beyond _ _ _ J).
        * intros j H. destruct (T j) as (A1 & _). rewrite A1.
          pose proof (i_task _ _ _ J j H) as Tj. cbn [s_task s0] in Tj.
          destruct (i =? j) eqn:Eij.
          -- apply Nat.eqb_eq in Eij. subst j. split; [lia|]. intros Hle. exfalso.
             assert (s_task s < k_n k) by lia. unfold i in Hle. rewrite Nat.mod_small in Hle by assumption. lia.
          -- apply Nat.eqb_neq in Eij. rewrite Nat.add_0_r, Tj. split; [|lia]. intros Hle.
             assert (s_task s <> j); [|lia]. intros E. apply Eij. unfold i. rewrite E. apply Nat.mod_small. exact H.
        * intros H. destruct (i_suff _ _ _ J H) as [B1 B2]. cbn [s_task s0] in B1.
          specialize (Hsuff H). assert (Ht : s_task s < k_n k) by (apply Nat.ltb_lt; exact Hsuff). split; [lia|].
          intros j. destruct (T j) as (A1 & _). rewrite A1. destruct (i =? j) eqn:Eij; [|rewrite Nat.add_0_r; apply B2].
          apply Nat.eqb_eq in Eij. subst j. apply Hfirst in Hsuff. lia.
        * rewrite visits_app, visits_next. cbn [visits]. f_equal. apply (i_visits _ _ _ J).
        * exact L1.
      + intros [= <- <-]. split; [exact L0|exact Logic.I].
    - destruct (s_n s =? 0) eqn:E0.
      + destruct (sufficient k && (k_n k <=? s_task s)); intros [= <- <-]; split; auto.
      + destruct (in_poll x) as [evs|]; [|intros [= <- <-]; split; auto].
        destruct (events_steps k s0 evs) as [r1 o1] eqn:E1. cbn [fst snd]. intros [= <- <-].
        assert (J1 : inv k s0 ((t ++ scr) ++ [OPoll])).
        { pose proof (inv_redraw k s t cs (scr ++ [OPoll]) I F) as J1. rewrite app_assoc in J1.
          apply J1. apply Forall_app. split; [exact Q|repeat constructor]. }
        destruct (events_steps_inv k evs s0 _ r1 o1 J1 E1) as [L1 I1].
        assert (EQ : t ++ scr ++ OPoll :: o1 = ((t ++ scr) ++ [OPoll]) ++ o1) by (rewrite <- !app_assoc; reflexivity).
        rewrite EQ. split; [exact L1|]. destruct r1; auto. apply I1.
  Qed.

  Lemma run_inv k xs : forall s t r o,
    inv k s t -> run strip k s xs = (r, o) ->
    legal k (t ++ o) /\ match r with Go s' => inv k s' (t ++ o) | _ => True end.
  Proof.
    induction xs as [|x xs IH]; intros s t r o I; cbn [run].
    - intros [= <- <-]. rewrite app_nil_r. split; [apply (i_legal _ _ _ I)|exact I].
    - destruct (step strip k s x) as [r1 o1] eqn:E1.
      destruct (step_inv k s t x r1 o1 I E1) as [L1 I1].
      destruct r1 as [s1|oc|].
      + destruct (run strip k s1 xs) as [r2 o2] eqn:E2. cbn [fst snd]. intros [= <- <-]. rewrite app_assoc.
        apply (IH s1 (t ++ o1) r2 o2 I1 E2).
      + intros [= <- <-]. split; [exact L1|exact Logic.I].
      + intros [= <- <-]. split; [exact L1|exact Logic.I].
  Qed.

  Lemma session_legal k xs r o : run strip k (s_init k) xs = (r, o) -> legal k o.
  Proof. intros H. apply (run_inv k xs (s_init k) [] r o (inv_init k) H). Qed.

  Lemma session_inv k xs s o : run strip k (s_init k) xs = (Go s, o) -> inv k s o.
  Proof. intros H. apply (run_inv k xs (s_init k) [] (Go s) o (inv_init k) H). Qed.
End Step.
