(** C98: the warnings of the parallel fuzzing loop. *)
From Coq Require Import String List Ascii Bool Arith NArith Lia.
From Verif Require Import Base Utf8 Lines Ui Sched SchedInv Warn.
Import ListNotations.

Definition lines_ok (k : cfg) (t : list out) (i : nat) (b : list str) : Prop :=
  exists old kept, cur_lines t i = old ++ kept ++ since_screen t i /\ b = if k_no_ui k then [] else kept ++ since_screen t i.

Definition bufs (k : cfg) (s : sstate) (t : list out) : Prop :=
  forall i c, nth_error (s_children s) i = Some (Some c) -> lines_ok k t i (ch_buffer c).

Lemma upd_same {A} (l : list A) i x : i < List.length l -> nth_error (upd l i x) i = Some x.
Proof. intros H. rewrite nth_upd, Nat.eqb_refl. destruct (nth_error l i) eqn:E; [reflexivity|]. apply nth_error_None in E. lia. Qed.
Lemma upd_other {A} (l : list A) i j x : i <> j -> nth_error (upd l i x) j = nth_error l j.
Proof. intros H. rewrite nth_upd. now destruct (Nat.eqb_spec i j). Qed.

Lemma since_show no_ui i ls : forall prev t j,
  since_screen (t ++ snd (show_lines no_ui i prev ls)) j = if i =? j then since_screen t j ++ ls else since_screen t j.
Proof.
  induction ls as [|l ls IH]; intros prev t j; cbn [show_lines snd].
  - rewrite app_nil_r. destruct (i =? j); [now rewrite app_nil_r|reflexivity].
  - cbv zeta. set (hd := if no_ui && negb (prev =? i) then [OHeader i] else []).
    change (hd ++ OLine i l :: snd (show_lines no_ui i i ls)) with (hd ++ [OLine i l] ++ snd (show_lines no_ui i i ls)).
    rewrite !app_assoc, IH, !since_app.
    assert (H : forall acc, fold_left (since_step j) hd acc = acc) by (intros; unfold hd; destruct (_ && _); reflexivity).
    rewrite H. cbn [fold_left since_step]. destruct (i =? j); [now rewrite <- app_assoc|reflexivity].
Qed.

Lemma bad_ends_show no_ui i ls : forall prev h, bad_ends h (snd (show_lines no_ui i prev ls)) = [].
Proof.
  induction ls as [|l ls IH]; intros prev h; [reflexivity|]. cbn [show_lines snd]. cbv zeta. rewrite bad_ends_app. cbn [bad_ends app].
  rewrite IH. destruct (_ && _); reflexivity.
Qed.

Lemma lines_more k no_ui t i b ls prev :
  lines_ok k t i b -> lines_ok k (t ++ snd (show_lines no_ui i prev ls)) i (if k_no_ui k then b else b ++ ls).
Proof.
  intros (old & kept & E & ->). exists old, kept.
  destruct (show_lines_facts no_ui i ls prev t i) as (_ & _ & _ & _ & ->). rewrite since_show, Nat.eqb_refl, E.
  split; [now rewrite <- !app_assoc|]. destruct (k_no_ui k); [reflexivity|now rewrite <- app_assoc].
Qed.

Lemma lines_other k no_ui t i j b ls prev :
  i <> j -> lines_ok k t j b -> lines_ok k (t ++ snd (show_lines no_ui i prev ls)) j b.
Proof.
  intros N (old & kept & E & ->). exists old, kept.
  destruct (show_lines_facts no_ui i ls prev t j) as (_ & _ & _ & _ & ->). rewrite since_show.
  destruct (i =? j) eqn:K; [apply Nat.eqb_eq in K; contradiction|auto].
Qed.

Lemma lines_snoc k t o i b :
  match o with OStart j _ _ => j <> i | OLine j _ => j <> i | OScreen _ => False | _ => True end ->
  lines_ok k t i b -> lines_ok k (t ++ [o]) i b.
Proof.
  intros H (old & kept & E & ->). exists old, kept. rewrite cur_lines_app, since_app. cbn [fold_left since_step].
  assert (N : forall j, j <> i -> (j =? i) = false) by (intros j K; now apply Nat.eqb_neq).
  destruct o; try contradiction; cbn [since_step]; try rewrite !(N _ H); auto.
Qed.

Lemma nth_name k i (cs : list (option child)) c : List.length cs = k_n k -> nth_error cs i = Some c -> nth_error (k_names k) i = Some (name_at k i).
Proof.
  intros L E. assert (i < List.length cs) by (apply nth_error_Some; congruence). unfold name_at. apply nth_error_nth'. unfold k_n in L. lia.
Qed.

Lemma event_bufs k exec s t ev r o :
  inv k s t -> bufs k s t -> event_step k s ev = (r, o) ->
  Forall2 (warning k exec) (event_warnings k exec s ev) (bad_ends t o) /\
  match r with Go s' => bufs k s' (t ++ o) | _ => True end.
Proof.
  intros I B. unfold event_step, event_warnings. set (i := ev_token ev).
  destruct (k_n k <=? i) eqn:Ei.
  { intros [= <- <-]. apply Nat.leb_le in Ei. destruct (nth_error (s_children s) i) eqn:E.
    - assert (i < List.length (s_children s)) by (apply nth_error_Some; congruence). rewrite (i_len _ _ _ I) in H. lia.
    - split; [constructor|exact Logic.I]. }
  destruct (nth_error (s_children s) i) as [[c|]|] eqn:Ec.
  2, 3: intros [= <- <-]; split; [constructor|exact Logic.I].
  destruct (read_event (ch_data c) (ev_reads ev)) as [[d ls]| |] eqn:Er.
  2, 3: intros [= <- <-]; split; [constructor|exact Logic.I].
  cbv zeta. set (sh := show_lines (k_no_ui k) i (s_prev s) ls).
  assert (Bsh : bad_ends t (snd sh) = []) by apply bad_ends_show.
  pose proof (B _ _ Ec) as Bc. apply (lines_more k (k_no_ui k) _ _ _ ls (s_prev s)) in Bc. fold sh in Bc.
  assert (Bo : forall j c', i <> j -> nth_error (s_children s) j = Some (Some c') -> lines_ok k (t ++ snd sh) j (ch_buffer c')).
  { intros j c' N E. apply lines_other; [exact N|]. now apply B. }
  assert (Bu : forall j c' v, nth_error (upd (s_children s) i v) j = Some (Some c') ->
             (i = j /\ v = Some c') \/ (i <> j /\ nth_error (s_children s) j = Some (Some c'))).
  { intros j c' v E. destruct (Nat.eq_dec i j) as [<-|N].
    - left. split; [reflexivity|]. rewrite upd_same in E by (rewrite (i_len _ _ _ I); now apply Nat.leb_gt). congruence.
    - right. split; [exact N|]. rewrite upd_other in E by exact N. exact E. }
  destruct (ev_closed ev); cbn [andb].
  2:{ intros [= <- <-]. rewrite Bsh. split; [constructor|]. intros j c' E. cbn [s_children] in E.
      apply Bu in E as [[<- [= <-]]|[N E]]; [exact Bc|now apply Bo]. }
  destruct (ev_deregister ev); cbn [andb].
  2:{ intros [= <- <-]. rewrite Bsh. split; [constructor|exact Logic.I]. }
  destruct (s_n s) as [|n'] eqn:En; cbn [Nat.eqb negb].
  { intros [= <- <-]. rewrite Bsh. split; [constructor|exact Logic.I]. }
  assert (Bn : forall e f, match e with OEnd _ _ _ => True | _ => False end ->
            bufs k {| s_children := upd (s_children s) i None; s_n := n'; s_task := s_task s; s_iter := s_iter s; s_failed := f; s_prev := fst sh |} (t ++ snd sh ++ [e])).
  { intros e f He j c' E. cbn [s_children] in E. apply Bu in E as [[_ E]|[N E]]; [discriminate E|].
    rewrite app_assoc. apply lines_snoc; [now destruct e|]. now apply Bo. }
  pose proof (nth_name k i _ _ (i_len _ _ _ I) Ec) as Nm.
  destruct (ev_wait ev) as [[|]|]; cbn [negb].
  - destruct (cd_aborted d); cbn [negb].
    + destruct (k_exit_code k && negb (cd_time_limit d)); intros [= <- <-]; rewrite bad_ends_app, Bsh; (split; [constructor|auto]).
    + intros [= <- <-]. rewrite bad_ends_app, Bsh. split; [|exact (Bn (OEnd i true true) _ Logic.I)].
      constructor; [|constructor]. exists (name_at k i). split; [exact Nm|reflexivity].
  - intros [= <- <-]. rewrite bad_ends_app, Bsh. split; [|exact (Bn (OEnd i false true) _ Logic.I)].
    constructor; [|constructor]. exists (name_at k i). split; [exact Nm|].
    destruct Bc as (old & kept & E & Eb). exists old, kept. split; [exact E|]. rewrite Eb. unfold failed_text. now destruct (k_no_ui k).
  - intros [= <- <-]. rewrite Bsh. split; [constructor|exact Logic.I].
Qed.

Lemma events_bufs k exec evs : forall s t r o,
  inv k s t -> bufs k s t -> events_steps k s evs = (r, o) ->
  Forall2 (warning k exec) (events_warnings k exec s evs) (bad_ends t o) /\
  match r with Go s' => bufs k s' (t ++ o) | _ => True end.
Proof.
  induction evs as [|ev evs IH]; intros s t r o I B; cbn [events_steps events_warnings].
  - intros [= <- <-]. rewrite app_nil_r. split; [constructor|exact B].
  - destruct (event_step k s ev) as [[s'|x|] o1] eqn:E; destruct (event_bufs _ exec _ _ _ _ _ I B E) as [W B1].
    + destruct (event_step_inv _ _ _ _ _ _ I E) as (_ & I1 & _).
      destruct (events_steps k s' evs) as [r2 o2] eqn:E2. cbn [fst snd]. intros [= <- <-].
      destruct (IH _ _ _ _ I1 B1 E2) as [W2 B2]. rewrite bad_ends_app. split; [now apply Forall2_app|].
      now rewrite app_assoc.
    + intros [= <- <-]. rewrite app_nil_r. auto.
    + intros [= <- <-]. rewrite app_nil_r. auto.
Qed.

Lemma step_bufs strip k exec s t x r o :
  inv k s t -> bufs k s t -> step strip k s x = (r, o) ->
  Forall2 (warning k exec) (step_warnings strip k exec s x) (bad_ends t o) /\
  match r with Go s' => bufs k s' (t ++ o) | _ => True end.
Proof.
  intros I B. unfold step, step_warnings.
  destruct (refresh strip (k_no_ui k) (in_size x) (s_n s) (s_children s)) as [[rows cs]| |] eqn:R.
  2, 3: intros [= <- <-]; split; [constructor|exact Logic.I].
  pose proof (refresh_same _ _ _ _ _ _ _ R) as F.
  cbv zeta. set (scr := if k_no_ui k then [] else [OScreen rows]).
  assert (Q : Forall quiet scr) by (unfold scr; destruct (k_no_ui k); repeat constructor).
  pose proof (inv_redraw k s t cs scr I F Q) as J.
  set (s0 := {| s_children := cs; s_n := s_n s; s_task := s_task s; s_iter := s_iter s; s_failed := s_failed s; s_prev := s_prev s |}) in *.
  assert (Bscr : forall h, bad_ends h scr = []) by (intros; unfold scr; destruct (k_no_ui k); reflexivity).
  assert (B0 : forall i c, nth_error cs i = Some (Some c) -> lines_ok k (t ++ scr) i (ch_buffer c)).
  { intros i c' E. assert (T : exists c, nth_error (s_children s) i = Some (Some c) /\ exists old, ch_buffer c = old ++ ch_buffer c').
    { clear - F E. revert i E. induction F as [|a b l l' H F IH]; intros [|i] E; cbn in E; try discriminate.
      - injection E as ->. destruct a as [c|]; [|contradiction]. exists c. split; [reflexivity|]. apply H.
      - now apply IH in E. }
    destruct T as (c & Ec & old0 & Eb). destruct (B _ _ Ec) as (old & kept & E1 & E2). unfold scr. destruct (k_no_ui k) eqn:U.
    - unfold refresh in R. injection R as <- <-. rewrite app_nil_r. exists old, kept. rewrite U.
      split; [exact E1|]. destruct (ch_buffer c'); [reflexivity|]. rewrite E2 in Eb. destruct old0; discriminate.
    - exists (old ++ old0), (ch_buffer c'). rewrite since_app, cur_lines_app, E1, U. cbn [fold_left since_step]. rewrite app_nil_r.
      split; [|reflexivity]. rewrite <- app_assoc. f_equal. now rewrite <- E2, Eb. }
  destruct (List.length (s_failed s) =? k_n k) eqn:Ef; cbn [orb].
  { intros [= <- <-]. rewrite Bscr. split; [constructor|exact Logic.I]. }
  destruct ((s_n s <? k_cpus k) && ((s_task s <? k_n k) || negb (sufficient k))) eqn:Ew; cbn [orb].
  - set (i := s_task s mod k_n k).
    assert (Bs : forall f it, bufs k {| s_children := cs; s_n := s_n s; s_task := S (s_task s); s_iter := it; s_failed := f; s_prev := s_prev s |} (t ++ scr ++ [OSkip i])).
    { intros f it j c E. rewrite app_assoc. apply lines_snoc; [exact Logic.I|]. now apply B0. }
    assert (Bk : bad_ends t (scr ++ [OSkip i]) = []) by (rewrite bad_ends_app, Bscr; reflexivity).
    destruct (mem i (s_failed s)). { intros [= <- <-]. rewrite Bk. split; [constructor|apply Bs]. }
    destruct (nth_error cs i) as [[c|]|] eqn:Ec.
    + destruct (sufficient k); intros [= <- <-]; [rewrite Bscr|rewrite Bk]; (split; [constructor|auto]).
    + destruct (_ || _). 2:{ intros [= <- <-]. rewrite Bscr. split; [constructor|exact Logic.I]. }
      destruct (in_spawn x). 2:{ intros [= <- <-]. rewrite Bscr. split; [constructor|exact Logic.I]. }
      intros [= <- <-]. rewrite bad_ends_app, Bscr. split; [constructor|]. intros j c E. cbn [s_children] in E. rewrite app_assoc.
      destruct (Nat.eq_dec i j) as [<-|N].
      * rewrite upd_same in E by (apply nth_error_Some; congruence). injection E as <-. cbn [new_child ch_buffer].
        exists [], []. rewrite cur_lines_app, since_app. cbn [fold_left since_step]. rewrite Nat.eqb_refl. now destruct (k_no_ui k).
      * rewrite upd_other in E by exact N. apply lines_snoc; [exact N|]. now apply B0.
    + intros [= <- <-]. rewrite Bscr. split; [constructor|exact Logic.I].
  - destruct (s_n s =? 0) eqn:E0.
    + destruct (sufficient k && (k_n k <=? s_task s)); intros E; inversion E; subst r o; rewrite Bscr; (split; [constructor|exact Logic.I]).
    + destruct (in_poll x) as [evs|]; [|intros [= <- <-]; rewrite Bscr; (split; [constructor|exact Logic.I])].
      fold s0. destruct (events_steps k s0 evs) as [r1 o1] eqn:E. cbn [fst snd]. intros [= <- <-].
      change (scr ++ OPoll :: o1) with (scr ++ [OPoll] ++ o1). rewrite !bad_ends_app, Bscr. cbn [bad_ends app].
      change (scr ++ OPoll :: o1) with (scr ++ [OPoll] ++ o1). rewrite !app_assoc.
      apply events_bufs; [|intros j c Ej; apply lines_snoc; [exact Logic.I|now apply B0]|exact E].
      assert (Q2 : Forall quiet (scr ++ [OPoll])) by (apply Forall_app; split; [exact Q|repeat constructor]).
      pose proof (inv_redraw k s t cs _ I F Q2) as J2. rewrite app_assoc in J2. exact J2.
Qed.

Lemma run_bufs strip k exec xs : forall s t,
  inv k s t -> bufs k s t ->
  Forall2 (warning k exec) (run_warnings strip k exec s xs) (bad_ends t (snd (run strip k s xs))).
Proof.
  induction xs as [|x xs IH]; intros s t I B; cbn [run run_warnings]; [constructor|].
  destruct (step strip k s x) as [[s'|y|] o] eqn:E; destruct (step_bufs _ _ exec _ _ _ _ _ I B E) as [W B1]; cbn [snd].
  - rewrite bad_ends_app. apply Forall2_app; [exact W|]. apply IH; [|exact B1]. now apply (step_inv _ _ _ _ _ _ _ I E).
  - now rewrite app_nil_r.
  - now rewrite app_nil_r.
Qed.

(** C98: there is one warning for every end of a fuzzer that marks its target as failed, in
    order and with the target's name.  A successful fuzzer that did not say it was aborted gets
    the one text, a failed fuzzer the other, with the lines it printed since the screen was
    last drawn and the newest before; without a screen, no lines. *)
Theorem C98_warnings :
  forall (strip : bytes -> bytes) (k : cfg) (exec : nat -> str) (xs : list input),
    Forall2 (warning k exec) (run_warnings strip k exec (s_init k) xs) (bad_ends [] (snd (run strip k (s_init k) xs))).
Proof.
  intros strip k exec xs. apply run_bufs; [apply inv_init|]. intros i c E. cbn in E. apply nth_error_In in E. apply repeat_spec in E. discriminate E.
Qed.
Print Assumptions C98_warnings.

Definition ex_k (no_ui : bool) : cfg := {| k_names := [lit "f"; lit "g"]; k_cpus := 2; k_no_ui := no_ui; k_exit_code := false |}.
Definition ex_ev (i : nat) (s : string) (closed ok : bool) : event :=
  {| ev_token := i; ev_reads := [RData (lit s ++ [LF]); if closed then REof else RBlock];
     ev_closed := closed; ev_deregister := true; ev_wait := Some ok |}.
Definition ex_in (evs : list event) : input := {| in_size := Some (5, 80); in_spawn := true; in_poll := Some evs |}.
(** Two fuzzers on a terminal of five rows; one prints three lines and fails, the other ends early. *)
Definition ex_xs : list input :=
  [ex_in []; ex_in []; ex_in [ex_ev 1 "cause" false true; ex_ev 1 "trace" false true];
   ex_in [ex_ev 1 "bye" true false; ex_ev 0 "done" true true]].
Definition ex_exec (i : nat) : str := lit """cargo""".

Example C98_example :
  bad_ends [] (snd (run (fun b => b) (ex_k false) (s_init (ex_k false)) ex_xs)) <> [] /\
  run_warnings (fun b => b) (ex_k false) ex_exec (s_init (ex_k false)) ex_xs
  = [lit "Warning: Command failed for target g: ""cargo""" ++ [LF] ++ lit "stdout: ```" ++ [LF] ++ lit "trace" ++ [LF] ++ lit "bye" ++ [LF] ++ lit "```" ++ [LF];
     lit "Warning: Could not find ""Testing aborted programmatically"" in command output for target f: ""cargo""" ++ [LF]] /\
  run_warnings (fun b => b) (ex_k true) ex_exec (s_init (ex_k true)) ex_xs
  = [lit "Warning: Command failed for target g: ""cargo""" ++ [LF] ++ lit "stdout: ```" ++ [LF; LF] ++ lit "```" ++ [LF];
     lit "Warning: Could not find ""Testing aborted programmatically"" in command output for target f: ""cargo""" ++ [LF]].
Proof. split; [vm_compute; discriminate|]. split; vm_compute; reflexivity. Qed.

(** C98: "the warning shows what the failed fuzzer printed" is refuted: lines that have left
    the screen are not in it. *)
Theorem C98_all_output_refuted :
  exists (k : cfg) (xs : list input) (h : list out) (l w : str),
    k_no_ui k = false /\ bad_ends [] (snd (run (fun b => b) k (s_init k) xs)) = [(h, 1, false)] /\
    In l (cur_lines h 1) /\ run_warnings (fun b => b) k ex_exec (s_init k) xs = [w] /\
    forall a b, w <> a ++ l ++ b.
Proof.
  exists (ex_k false), (firstn 3 ex_xs ++ [ex_in [ex_ev 1 "bye" true false]]). do 3 eexists.
  split; [reflexivity|]. split; [vm_compute; reflexivity|]. split; [vm_compute; left; reflexivity|].
  split; [vm_compute; reflexivity|]. intros a b E.
  assert (K : contains (lit "cause") (a ++ lit "cause" ++ b) = true).
  { apply contains_spec. now exists a, b. }
  change (lit "cause") with ["c"; "a"; "u"; "s"; "e"]%char in K. rewrite <- E in K. vm_compute in K. discriminate K.
Qed.
Print Assumptions C98_all_output_refuted.
