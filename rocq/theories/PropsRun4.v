(** C96, C97: the headings of the targets shown and the compiler messages of a failed build. *)
From Coq Require Import String List Ascii Bool Arith NArith Lia.
From stdpp Require Import gmap strings.
From Verif Require Import Base Utf8 Lossy Decimal Env Dirs Opts Targets Semver Sha1 Fs Write Meta FuzzCmd Build AutoGen Run RunFacts PropsRun PropsRun2.
From Verif Require Consolidate Entries Lines Sched Ui PropsSched PropsFuzzCmd.
Import ListNotations.
Local Open Scope nat_scope.

(** What is shown, in order: a heading or the entries of a target. *)
Definition shown_item (a : act) : list (str + str) :=
  match a with AHeading s => [inl s] | ATarget _ tg _ _ => [inr tg] | _ => [] end.
Definition shown_target (a : act) : list str :=
  match a with ATarget _ tg _ _ => [tg] | _ => [] end.

(** A name that a terminal shows as it is. *)
Definition plain (strip : bytes -> bytes) (tg : str) : Prop :=
  is_ascii tg /\ forall i, strip (firstn i (tg ++ lit " ")) = firstn i (tg ++ lit " ").

(** The heading: the name, a space and dashes, as wide as the terminal; if that is not
    known, three dashes. *)
Definition heading (width : option nat) (tg : str) : str :=
  match width with
  | Some n => firstn n (tg ++ lit " " ++ repeat "-"%char n)
  | None => tg ++ lit " ---"
  end.

Lemma firstn_dashes (p : str) n : firstn n (p ++ repeat "-"%char n) = firstn n (p ++ repeat "-"%char (n - List.length p)).
Proof.
  rewrite !firstn_app. f_equal. replace (repeat "-"%char n) with (repeat "-"%char (n - List.length p) ++ repeat "-"%char (n - (n - List.length p))).
  2:{ rewrite <- repeat_app. f_equal. lia. }
  rewrite firstn_app, repeat_length, Nat.sub_diag. cbn [firstn]. now rewrite app_nil_r.
Qed.

Lemma heading_divider strip tg width : Ui.streaming strip -> plain strip tg ->
  Ui.divider_with_width strip tg (match width with Some n => n | None => List.length tg + 4 end) = Ret (heading width tg).
Proof.
  intros Hs [A P]. rewrite (Ui.divider_plain strip Hs tg _ A P). f_equal. unfold heading. destruct width as [n|].
  - rewrite <- firstn_dashes. now rewrite <- app_assoc.
  - rewrite firstn_all2; rewrite !app_length; cbn [lit List.length list_ascii_of_string].
    + replace (List.length tg + 4 - (List.length tg + 1)) with 3 by lia. now rewrite <- app_assoc.
    + rewrite repeat_length. lia.
Qed.

Lemma show_loop w o b fl m m' u :
  Ui.streaming (w_strip w) -> chosen_object o <> None ->
  pfor (fun xt => pbind (p_heading w b (snd xt)) (fun _ => p_entries w o xt)) fl m = (m', u, ROk tt) ->
  flat_map shown_target u = map snd fl /\
  ((forall tg, In tg (map snd fl) -> plain (w_strip w) tg) ->
   flat_map shown_item u = flat_map (fun tg => (if b then [inl (heading (w_width w) tg)] else []) ++ [inr tg]) (map snd fl)).
Proof.
  intros Hs C. revert m m' u. induction fl as [|[x tg] fl IH]; intros m m' u E.
  { injection E as _ <-. auto. }
  cbn [pfor] in E. apply pbind_inv in E as [(m1 & u1 & u2 & [] & X & D & ->)|(r1 & _ & _ & K & _)]; [|exfalso; now apply (K tt)].
  apply IH in D as [D1 D2]. clear IH.
  apply pbind_inv in X as [(m3 & u3 & u4 & [] & X3 & X & ->)|(r1 & _ & _ & K & _)]; [|exfalso; now apply (K tt)].
  assert (H4 : flat_map shown_target u4 = [tg] /\ flat_map shown_item u4 = [inr tg]).
  { unfold p_entries in X. destruct (chosen_object o) as [ob|]; [|congruence].
    apply pbind_inv in X as [(m5 & u5 & u6 & [[rct raw] dir] & X5 & X & ->)|(r1 & _ & _ & K & _)]; [|exfalso; now apply (K tt)].
    injection X5 as _ <- _. cbv zeta in X.
    apply pbind_inv in X as [(m7 & u7 & u8 & [] & X7 & X & ->)|(r1 & _ & _ & K & _)]; [|exfalso; now apply (K tt)].
    injection X7 as _ <-. injection X as _ <- _. auto. }
  destruct H4 as [H4 H4'].
  assert (H3 : flat_map shown_target u3 = [] /\ (plain (w_strip w) tg -> flat_map shown_item u3 = if b then [inl (heading (w_width w) tg)] else [])).
  { cbn [snd] in X3. unfold p_heading in X3. destruct b; [|injection X3 as _ <-; auto].
    apply pbind_inv in X3 as [(m5 & u5 & u6 & d & X5 & X3 & ->)|(r1 & _ & _ & K & _)]; [|exfalso; now apply (K tt)].
    unfold plift in X5. injection X3 as _ <-. injection X5 as _ <- X5. split; [reflexivity|]. intros P. cbn.
    rewrite (heading_divider _ _ _ Hs P) in X5. now injection X5 as <-. }
  destruct H3 as [H3 H3']. rewrite !flat_map_app, H3, H4, D1. split; [reflexivity|]. intros P.
  rewrite H3', H4', D2; [|intros; apply P; now right|apply P; now left]. cbn [map flat_map snd]. now rewrite <- app_assoc.
Qed.

Lemma no_items t : (forall a, In a t -> act_job a = None) -> flat_map shown_item t = [] /\ flat_map shown_target t = [].
Proof.
  induction t as [|a t IH]; [auto|]. intros H. destruct IH as [I1 I2]; [intros; apply H; now right|].
  cbn [flat_map]. rewrite I1, I2. assert (N := H a (or_introl eq_refl)). destruct a; cbn in N; try discriminate N; auto.
Qed.

(** If more than one target is shown, each is directly preceded by the heading with its name;
    a single target is shown without one.  There are no other headings. *)
Theorem C96_headings :
  forall (w : world) (o : opts) (m m' : fs) (t : list act),
    Ui.streaming (w_strip w) ->
    run w o m = (m', t, ROk tt) -> asks o JShow ->
    (forall x tg dir es, In (ATarget x tg dir es) t -> plain (w_strip w) tg) ->
    flat_map shown_item t
    = match flat_map shown_target t with
      | [tg] => [inr tg]
      | tgs => flat_map (fun tg => [inl (heading (w_width w) tg); inr tg]) tgs
      end.
Proof.
  intros w o m m' t Hs E A PL. apply run_eq in E as (r0 & E & R).
  assert (r0 = ROk tt) by (destruct r0 as [[]|e| |n|]; try congruence; destruct (o_exit_code o); congruence). subst r0. clear R.
  apply adjust_asks in A. destruct A as (L & N & C & S0).
  apply run_shape in E as [(_ & _ & _ & e & K)|[(_ & _ & _ & K)|(_ & t1 & t2 & l & P & D & ->)]]; [congruence|exfalso; now apply (K tt)|].
  apply prepare_within in P.
  assert (FB : forall a, In a t1 -> act_job a = None).
  { intros a I. rewrite Forall_forall in P. apply P. now apply elem_of_list_In. }
  apply dispatch_cases in D as [(L' & _)|[(_ & N' & _)|[(_ & _ & C' & D)|[(_ & _ & _ & C' & D)|[(_ & _ & _ & _ & _ & D)|(_ & _ & _ & _ & S' & D)]]]]]; try congruence.
  - exfalso. apply C. apply clear_true. now left.
  - exfalso. apply C. apply clear_true. now right.
  - assert (CH : chosen_object (adjust o) <> None).
    { unfold asks_show in S0. unfold chosen_object. destruct (o_coverage _), (o_display _), (o_replay _); try congruence. intuition congruence. }
    unfold p_show in D.
    apply pbind_inv in D as [(m1 & u1 & u2 & a & X & D & ->)|(r1 & _ & _ & K & _)]; [|exfalso; now apply (K tt)].
    apply pbind_inv in D as [(m3 & u3 & u4 & fl & X3 & D & ->)|(r1 & _ & _ & K & _)]; [|exfalso; now apply (K tt)].
    injection X3 as _ <- _.
    apply pbind_inv in D as [(m5 & u5 & u6 & [] & X5 & D & ->)|(r1 & _ & _ & K & _)]; [|exfalso; now apply (K tt)].
    apply (show_loop _ _ _ _ _ _ _ Hs CH) in X5 as [T I].
    assert (U1 : flat_map shown_item u1 = [] /\ flat_map shown_target u1 = []).
    { destruct (is_some _); [|injection X as _ <- _; auto].
      apply pbind_inv in X as [(m7 & u7 & u8 & c & X7 & X & ->)|(r1 & _ & _ & K & _)]; [|exfalso; now apply (K a)].
      injection X7 as _ <- _. destruct (w_clean w); injection X as _ <- _; auto. }
    assert (U6 : flat_map shown_item u6 = [] /\ flat_map shown_target u6 = []).
    { destruct (is_some _); [|injection D as _ <-; auto]. unfold p_report in D. destruct (w_lcov w) as [ex|]; [|discriminate D].
      apply pbind_inv in D as [(mn & un & un' & dn & Xn & D & ->)|(r1 & _ & _ & K & _)]; [|exfalso; now apply (K tt)].
      apply pbind_inv in D as [(m9 & u9 & u10 & d & X9 & D & ->)|(r1 & _ & _ & K & _)]; [|exfalso; now apply (K tt)].
      injection X9 as _ <- _.
      assert (V : u10 = [ANote wrote_lcov]) by (destruct (w_report w _); inversion D; reflexivity). rewrite V.
      destruct ex; injection Xn as _ <- _; auto. }
    destruct (no_items _ FB) as [F1 F2], U1 as [U1 U1'], U6 as [U6 U6'].
    assert (PF : forall tg, In tg (map snd fl) -> plain (w_strip w) tg).
    { intros tg It. rewrite <- T in It. apply in_flat_map in It as (ac & Ia & It). destruct ac; try destruct It as [].
      - subst. eapply PL. rewrite !in_app_iff. do 3 right. left. exact Ia.
      - contradiction. }
    rewrite !flat_map_app, F1, F2, U1, U1', U6, U6', T, (I PF), !app_nil_r. cbn [flat_map app].
    destruct fl as [|xt1 [|xt2 fl]]; reflexivity.
  - exfalso. apply show_bool in S0. congruence.
Qed.
Print Assumptions C96_headings.

(** [ex_world] with another listing, terminal width and removal of escape sequences. *)
Definition ex_wide (listing : bytes) (width : option nat) : world :=
  let w := ex_world ex_afl_ok [] in
  {| w_cargo := w_cargo w; w_parse := w_parse w; w_afl := w_afl w; w_terminal := false; w_build := w_build w;
     w_listing := fun _ => listing; w_self := w_self w; w_show := w_show w; w_id := None; w_io := w_io w; w_width := width; w_clean := true;
     w_eio := w_eio w; w_lcov := Some true; w_report := w_report w; w_gen := w_gen w; w_cpus := 4; w_checks := true;
     w_foreground := true; w_strip := Ui.strip_csi; w_session := [] |}.
Definition ex_listing (a b : str) : bytes :=
  a ++ lit "_fuzz__::entry: test" ++ [LF] ++ b ++ lit "_fuzz__::entry: test" ++ [LF].

(** "The targets are always shown" is refuted: with two targets, a terminal as narrow as one
    of their names can make the heading panic, where a wide terminal does not. *)
Theorem C96_narrow_terminal_refuted :
  exists (w : nat -> world) (o : opts) (m : fs) (x : executable) (tg : str) (dir : path) (es : list Entries.ev),
    (forall n, exists a b, w n = ex_wide (ex_listing a b) (Some n)) /\ valid_utf8 tg = true /\ asks o JShow /\
    (match run (w 80) o m with (_, t, r) => status r = Some 0 /\ In (ATarget x tg dir es) t end) /\
    (match run (w 4) o m with (_, t, r) => status r = Some 101 /\ forall dir es, ~ In (ATarget x tg dir es) t end).
Proof.
  exists (fun n => ex_wide (ex_listing (lit "f") (lit "a" ++ [ascii_of_N 195; ascii_of_N 169])) (Some n)), (ex_o (Some Corpus_) None false), ∅.
  do 4 eexists. split; [intros n; eauto|].
  split; [|split; [|split; [vm_compute; split; [reflexivity|do 6 right; left; reflexivity]|]]].
  - reflexivity.
  - unfold asks, asks_clear, asks_show. cbn. intuition congruence.
  - vm_compute. split; [reflexivity|]. intros dir es I. intuition discriminate.
Qed.
Print Assumptions C96_narrow_terminal_refuted.

(** Two targets on a terminal of twelve columns, then without a terminal, then one target. *)
Example C96_example :
  let items o w := match run w o ∅ with (_, t, r) => (flat_map shown_item t, r) end in
  items (ex_o (Some Corpus_) None false) (ex_wide (ex_listing (lit "f") (lit "long::target::name")) (Some 12))
    = ([inl (lit "f ----------"); inr (lit "f"); inl (lit "long::target"); inr (lit "long::target::name")], ROk tt) /\
  items (ex_o (Some Corpus_) None false) (ex_wide (ex_listing (lit "f") (lit "g")) None)
    = ([inl (lit "f ---"); inr (lit "f"); inl (lit "g ---"); inr (lit "g")], ROk tt) /\
  items (ex_o (Some Corpus_) None false) (ex_wide (lit "g_fuzz__::entry: test" ++ [LF]) None) = ([inr (lit "g")], ROk tt).
Proof. vm_compute. auto. Qed.

(** ** The build *)

(** The compiler's messages among cargo's. *)
Definition compiler_texts (ms : list message) : list str :=
  flat_map (fun x => match x with CompilerMessage s => [s] | _ => [] end) ms.

Lemma pfor_compiler ms m : pfor p_compiler ms m = (m, map ACompiler (compiler_texts ms), ROk tt).
Proof.
  unfold compiler_texts. induction ms as [|x ms IH]; [reflexivity|]. cbn [pfor flat_map]. unfold pbind.
  destruct x as [id name b e|s|]; cbn [p_compiler pact pret]; rewrite IH; reflexivity.
Qed.

Lemma targets_quiet w o xs m m' t r s : p_targets w o xs m = (m', t, r) -> ~ In (ACompiler s) t.
Proof.
  intros E I. assert (W : within (fun a => a <> ACompiler s) (p_targets w o xs)).
  { unfold p_targets. phase_tac; discriminate. }
  apply W in E. rewrite Forall_forall in E. apply elem_of_list_In in I. exact (E _ I eq_refl).
Qed.

Lemma versions_quiet w a l m m' t r s : p_versions w a l m = (m', t, r) -> ~ In (ACompiler s) t.
Proof.
  intros E I. assert (W : within (fun a => a <> ACompiler s) (p_versions w a l)).
  { unfold p_versions, perr. destruct (snd _); phase_tac; discriminate. }
  apply W in E. rewrite Forall_forall in E. apply elem_of_list_In in I. exact (E _ I eq_refl).
Qed.

Lemma build_compiler w o m m' t r :
  p_build w o m = (m', t, r) ->
  (t = [] /\ forall xs, r <> ROk xs) \/
  exists args silent,
    t = ABuild args silent :: match w_build w args with Some (false, ms) => map ACompiler (compiler_texts ms) | _ => [] end /\
    (forall ms, w_build w args = Some (false, ms) -> exists e, r = RErr e) /\
    (w_build w args = None -> exists e, r = RErr e).
Proof.
  intros E. unfold p_build in E.
  apply pbind_inv in E as [(m1 & t1 & t2 & [c [[md td] env]] & X & E & ->)|(r1 & X & _ & N & _)].
  2:{ left. unfold plift in X. injection X as _ <- _. split; [reflexivity|]. intros xs K. exact (N _ K). }
  right. injection X as <- <- _. cbn [snd] in E.
  apply pbind_inv in E as [(m3 & t3 & t4 & [] & X & E & ->)|(r1 & X & K & _)]; [|injection X as _ _ <-; exfalso; now apply (K tt)].
  injection X as <- <-. exists (build_args o td (w_terminal w)), (silence_stderr o). cbn [app].
  destruct (w_build w _) as [[[|] ms]|].
  - injection E as _ <- _. split; [reflexivity|]. split; intros; congruence.
  - unfold pbind in E. rewrite pfor_compiler in E. unfold perr, plift in E. injection E as _ <- <-. rewrite app_nil_r.
    split; [reflexivity|]. split; [eauto|]. intros; congruence.
  - injection E as _ <- <-. split; [reflexivity|]. split; eauto.
Qed.

(** If the build fails, the compiler's messages are printed, all of them and in order, nothing
    else happens, nothing changes, and the status is 1, or 2 with --exit-code. *)
Theorem C97_failed_build :
  forall (w : world) (o : opts) (m m' : fs) (t : list act) (r : rres unit) (args : list str) (silent : bool) (ms : list message),
    run w o m = (m', t, r) -> In (ABuild args silent) t -> w_build w args = Some (false, ms) ->
    m' = m /\
    t = [AVersion; ABuild args silent] ++ map ACompiler (flat_map (fun x => match x with CompilerMessage s => [s] | _ => [] end) ms) /\
    status r = Some (if o_exit_code o then 2 else 1).
Proof.
  intros w o m m' t r args silent ms E I B. apply run_eq in E as (r0 & E & R).
  apply run_inv in E as [(b & _ & _ & _ & -> & _)|[(b & _ & _ & _ & _ & -> & _)|[_ E]]]; [destruct I..|].
  assert (Q : forall t1 m1 r1, p_prepare w (adjust o) m = (m1, t1, r1) -> In (ABuild args silent) t1 ->
             m1 = m /\ t1 = [AVersion; ABuild args silent] ++ map ACompiler (compiler_texts ms) /\ exists e, r1 = RErr e).
  { clear - B. intros t1 m1 r1 E I.
    assert (M : m1 = m) by (eapply prepare_keeps; exact E). split; [exact M|]. subst m1. unfold p_prepare in E.
    apply pbind_inv in E as [(m1 & u1 & u2 & [] & X & E & ->)|(r2 & X & K & _)]; [|injection X as _ <-; exfalso; now apply (K tt)].
    injection X as <- <-.
    apply pbind_inv in E as [(m3 & u3 & u4 & afl & X & E & ->)|(r2 & X & _)].
    2:{ unfold plift in X. injection X as <- _. destruct I as [I|I]; [discriminate I|destruct I]. }
    injection X as <- <- _. cbn [app] in *. destruct I as [I|I]; [discriminate I|].
    apply pbind_inv in E as [(m5 & u5 & u6 & xs & X & E & ->)|(r2 & X & _ & _ & HE & _)].
    - apply build_compiler in X as [[_ X]|(args' & silent' & -> & X1 & X2)]; [exfalso; now apply (X xs)|].
      exfalso. assert (A : args' = args).
      { destruct I as [I|I]; [now injection I as -> _|]. apply in_app_iff in I as [I|I].
        - destruct (w_build w args') as [[[|] ms']|]; try destruct I. apply in_map_iff in I as (? & I & _). discriminate I.
        - exfalso. assert (W : within (fun a => forall b c, a <> ABuild b c) (pbind (p_targets w (adjust o) xs) (fun l => pbind (p_versions w afl l) (fun _ => pret l)))).
          { unfold p_targets, p_versions, perr. phase_tac; try discriminate. destruct (snd _); phase_tac. }
          apply W in E. rewrite Forall_forall in E. apply elem_of_list_In in I. exact (E _ I _ _ eq_refl). }
      subst args'. destruct (X1 _ B) as (e & K). discriminate K.
    - apply build_compiler in X as [[-> _]|(args' & silent' & -> & X1 & X2)]; [destruct I|].
      assert (A : args' = args /\ silent' = silent).
      { destruct I as [I|I]; [now injection I as -> ->|].
        destruct (w_build w args') as [[[|] ms']|]; try destruct I. apply in_map_iff in I as (? & I & _). discriminate I. }
      destruct A as [-> ->]. rewrite B. split; [reflexivity|]. destruct (X1 _ B) as (e & ->). exists e. now apply HE. }
  apply pbind_inv in E as [(m1 & u1 & u2 & l & X & E & ->)|(r1 & X & N & _ & HE & _)].
  - exfalso. apply in_app_iff in I as [I|I].
    + destruct (Q _ _ _ X I) as (_ & _ & e & K). discriminate K.
    + destruct (dispatch_job _ _ _ _ _ _ _ _ E I) as (j & J & _). discriminate J.
  - destruct (Q _ _ _ X I) as (-> & -> & e & ->). split; [reflexivity|]. split; [reflexivity|].
    assert (r0 = RErr e) by now apply HE. subst r0. rewrite R. now destruct (o_exit_code o).
Qed.
Print Assumptions C97_failed_build.

(** The compiler's messages are printed only if the build fails. *)
Theorem C97_silent_otherwise :
  forall (w : world) (o : opts) (m m' : fs) (t : list act) (r : rres unit) (s : str),
    run w o m = (m', t, r) -> In (ACompiler s) t ->
    exists args silent ms, In (ABuild args silent) t /\ w_build w args = Some (false, ms) /\ In (CompilerMessage s) ms.
Proof.
  intros w o m m' t r s E I. apply run_eq in E as (r0 & E & _).
  assert (Q : forall t1 m1 r1, p_prepare w (adjust o) m = (m1, t1, r1) -> In (ACompiler s) t1 ->
             exists args silent ms, In (ABuild args silent) t1 /\ w_build w args = Some (false, ms) /\ In (CompilerMessage s) ms).
  { clear. intros t1 m1 r1 E I. unfold p_prepare in E.
    apply pbind_inv in E as [(m2 & u1 & u2 & [] & X & E & ->)|(r2 & X & K & _)]; [|injection X as _ _ <-; exfalso; now apply (K tt)].
    injection X as <- <-. destruct I as [I|I]; [discriminate I|].
    apply pbind_inv in E as [(m3 & u3 & u4 & afl & X & E & ->)|(r2 & X & _)]; [|injection X as _ <- _; destruct I].
    injection X as <- <- _. cbn [app] in *.
    assert (B : forall u q n, p_build w (adjust o) m = (n, u, q) -> In (ACompiler s) u ->
              exists args silent ms, In (ABuild args silent) u /\ w_build w args = Some (false, ms) /\ In (CompilerMessage s) ms).
    { clear. intros u q n E I. apply build_compiler in E as [[-> _]|(args & silent & -> & _)]; [destruct I|].
      destruct I as [I|I]; [discriminate I|]. destruct (w_build w args) as [[[|] ms]|] eqn:B; try destruct I.
      exists args, silent, ms. split; [now left|]. split; [exact B|].
      apply in_map_iff in I as (s' & I & J). injection I as ->. unfold compiler_texts in J. apply in_flat_map in J as (x & J & K).
      destruct x as [id name b e|s'|]; try destruct K. subst. exact J. contradiction. }
    apply pbind_inv in E as [(m5 & u5 & u6 & xs & X & E & ->)|(r2 & X & _ & _ & _ & _)].
    - apply in_app_iff in I as [I|I].
      + destruct (B _ _ _ X I) as (a & b & c & H & H'). exists a, b, c. split; [right; apply in_app_iff; now left|exact H'].
      + exfalso. apply pbind_inv in E as [(m7 & u7 & u8 & l & X7 & E & ->)|(r2 & X7 & _)]; [|now apply (targets_quiet _ _ _ _ _ _ _ s X7)].
        apply in_app_iff in I as [I|I]; [now apply (targets_quiet _ _ _ _ _ _ _ s X7)|].
        apply pbind_inv in E as [(m9 & u9 & u10 & [] & X9 & E & ->)|(r2 & X9 & _)]; [|now apply (versions_quiet _ _ _ _ _ _ _ s X9)].
        injection E as _ <- _. rewrite app_nil_r in I. now apply (versions_quiet _ _ _ _ _ _ _ s X9).
    - destruct (B _ _ _ X I) as (a & b & c & H & H'). exists a, b, c. split; [now right|exact H']. }
  apply run_shape in E as [(_ & _ & -> & _)|[(_ & _ & P & _)|(_ & t1 & t2 & l & P & D & ->)]]; [destruct I|now apply (Q _ _ _ P)|].
  apply in_app_iff in I as [I|I].
  - destruct (Q _ _ _ P I) as (a & b & c & H & H'). exists a, b, c. split; [apply in_app_iff; now left|exact H'].
  - destruct (dispatch_job _ _ _ _ _ _ _ _ D I) as (j & J & _). discriminate J.
Qed.
Print Assumptions C97_silent_otherwise.

(** The same world, with a build that fails. *)
Definition ex_broken : world :=
  let w := ex_wide (ex_listing (lit "f") (lit "g")) None in
  {| w_cargo := w_cargo w; w_parse := w_parse w; w_afl := w_afl w; w_terminal := false;
     w_build := fun _ => Some (false, [CompilerMessage (lit "warning"); OtherMessage; CompilerMessage (lit "error")]);
     w_listing := w_listing w; w_self := w_self w; w_show := w_show w; w_id := None; w_io := w_io w; w_width := None; w_clean := true;
     w_eio := w_eio w; w_lcov := Some true; w_report := w_report w; w_gen := w_gen w; w_cpus := 4; w_checks := true;
     w_foreground := true; w_strip := Ui.strip_csi; w_session := [] |}.
Example C97_example :
  let texts w o := match run w o ∅ with
                   | (_, t, r) => (flat_map (fun a => match a with ACompiler s => [s] | _ => [] end) t, List.length t, status r) end in
  texts ex_broken (ex_o None None false) = ([lit "warning"; lit "error"], 4, Some 1) /\
  texts ex_broken (ex_o None None true) = ([lit "warning"; lit "error"], 4, Some 2) /\
  texts (ex_wide (ex_listing (lit "f") (lit "g")) None) (ex_o (Some Corpus_) None false) = ([], 7, Some 0).
Proof. vm_compute. auto. Qed.
