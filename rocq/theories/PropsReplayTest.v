(** Theorems about the test that replays hangs (C131). *)
From Coq Require Import Ascii String List Bool Arith NArith Lia.
From Verif Require Import Base Utf8 Lossy Dirs Opts Targets Entries ReplayTest.
From Verif Require PropsEntries.
Import ListNotations.

Lemma at_end_spec b : at_end b = true <-> b = [] \/ exists t, b = LF :: t.
Proof.
  destruct b as [|c b]; unfold at_end; [tauto|]. destruct (ascii_dec c LF) as [->|N].
  - split; [right; now exists b|reflexivity].
  - split; [discriminate|]. intros [K|(t & K)]; [discriminate|]. now injection K.
Qed.

(** The expression is matched by exactly the texts with such a line. *)
Theorem C131_regex :
  forall (word_end : str -> bool) (out : str), is_match word_end [] out = true <-> says_timeout word_end out.
Proof.
  intros w out.
  assert (G : forall before, is_match w before out = true <-> exists a b, out = a ++ lit "Timeout" ++ b /\ w (before ++ a) = false /\ (b = [] \/ exists t, b = LF :: t)).
  { induction out as [|c out IH]; intros before; cbn [is_match]; rewrite orb_true_iff.
    - split; [intros [H|H]; discriminate H|]. intros (a & b & E & _). destruct a; discriminate E.
    - rewrite IH. split.
      + intros [H|(a & b & -> & W & B)].
        * destruct (strip_prefix (lit "Timeout") (c :: out)) as [b|] eqn:S; [|discriminate]. apply strip_prefix_spec in S. apply andb_true_iff in H as (H1 & H2).
          exists [], b. rewrite app_nil_r, S. split; [reflexivity|]. split; [now apply negb_true_iff|now apply at_end_spec].
        * exists (c :: a), b. split; [reflexivity|]. rewrite <- app_assoc in W. auto.
      + intros (a & b & E & W & B). destruct a as [|d a].
        * left. cbn [app] in E. replace (strip_prefix (lit "Timeout") (c :: out)) with (Some b) by (symmetry; now apply strip_prefix_spec).
          rewrite app_nil_r in W. rewrite W. now apply at_end_spec.
        * right. assert (E' : out = a ++ lit "Timeout" ++ b) by now injection E. assert (c = d) by now injection E. subst d.
          exists a, b. split; [exact E'|]. rewrite <- app_assoc. auto. }
  apply G.
Qed.
Print Assumptions C131_regex.

Section Word.
Variable w : str -> bool.
Hypothesis L : local w.

Lemma app_split {A} (x1 x2 y1 y2 : list A) : x1 ++ x2 = y1 ++ y2 -> (exists l, x1 = y1 ++ l /\ y2 = l ++ x2) \/ (exists l, y1 = x1 ++ l /\ x2 = l ++ y2).
Proof.
  revert y1. induction x1 as [|a x1 IH]; intros y1 E; [right; exists y1; auto|]. destruct y1 as [|b y1]; [left; exists (a :: x1); auto|].
  cbn in E. injection E as -> E. destruct (IH y1 E) as [(l & -> & ->)|(l & -> & ->)]; [left|right]; exists l; auto.
Qed.

Lemma no_lf_in_needle x y : lit "Timeout" = x ++ LF :: y -> False.
Proof. intros E. assert (I : In LF (lit "Timeout")) by (rewrite E; apply in_or_app; right; now left). vm_compute in I. repeat destruct I as [I|I]; try discriminate I. exact I. Qed.

Lemma says_app a b : says_timeout w ((a ++ [LF]) ++ b) <-> says_timeout w (a ++ [LF]) \/ says_timeout w b.
Proof.
  destruct L as (L0 & _ & LL). split.
  - intros (p & q & E & W & Q). symmetry in E. apply app_split in E as [(l & -> & ->)|(l & E & E')].
    + right. exists l, q. rewrite <- app_assoc in W. cbn [app] in W. rewrite LL in W. auto.
    + apply app_split in E' as [(m & E1 & ->)|(m & -> & ->)].
      * destruct l as [|x l0] using rev_ind.
        -- right. exists [], q. cbn [app] in E1. rewrite E1. auto.
        -- exfalso. rewrite app_assoc in E. apply app_inj_tail in E as (_ & <-). rewrite <- app_assoc in E1. now apply no_lf_in_needle in E1.
      * left. destruct Q as [Q|(t & Q)].
        -- apply app_eq_nil in Q as (-> & ->). exists p, []. rewrite E. auto.
        -- destruct m as [|c m].
           ++ exfalso. rewrite app_nil_r in E. change (lit "Timeout") with (lit "Timeou" ++ lit "t") in E. rewrite app_assoc in E. apply app_inj_tail in E as (_ & E). discriminate E.
           ++ cbn [app] in Q. injection Q as -> _. exists p, (LF :: m). rewrite E. split; [reflexivity|]. eauto.
  - intros [(p & q & E & W & Q)|(p & q & -> & W & Q)].
    + exists p, (q ++ b). rewrite E, <- !app_assoc. split; [reflexivity|]. split; [exact W|]. destruct Q as [->|(t & ->)]; [|right; exists (t ++ b); reflexivity].
      exfalso. rewrite app_nil_r in E. change (lit "Timeout") with (lit "Timeou" ++ lit "t") in E. rewrite app_assoc in E. apply app_inj_tail in E as (_ & E). discriminate E.
    + exists ((a ++ [LF]) ++ p), q. rewrite <- !app_assoc. cbn [app]. rewrite LL. auto.
Qed.

Lemma says_nil : ~ says_timeout w [].
Proof. intros (a & b & E & _). destruct a; discriminate E. Qed.

Lemma says_lf a : says_timeout w (a ++ [LF]) <-> says_timeout w a.
Proof.
  split.
  - intros (p & q & E & W & Q). destruct q as [|x q _] using rev_ind.
    + exfalso. rewrite app_nil_r in E. change (lit "Timeout") with (lit "Timeou" ++ lit "t") in E. rewrite app_assoc in E. apply app_inj_tail in E as (_ & E). discriminate E.
    + rewrite !app_assoc in E. apply app_inj_tail in E as (-> & <-). exists p, q. rewrite <- app_assoc. split; [reflexivity|]. split; [exact W|].
      destruct Q as [Q|(t & Q)]; [now destruct q|]. destruct q as [|c q]; [now left|right]. cbn [app] in Q. injection Q as -> _. eauto.
  - intros (p & q & -> & W & Q). exists p, (q ++ [LF]). rewrite <- !app_assoc. split; [reflexivity|]. split; [exact W|]. destruct Q as [->|(t & ->)]; right; [exists []|exists (t ++ [LF])]; reflexivity.
Qed.

Lemma says_concat reports : Forall ends_lf reports -> (says_timeout w (List.concat reports) <-> exists r, In r reports /\ says_timeout w r).
Proof.
  induction 1 as [|r l (t & ->) F IH]; cbn [List.concat].
  - split; [intros H; now apply says_nil in H|intros (? & [] & _)].
  - rewrite says_app, IH. split.
    + intros [H|(x & I & H)]; [exists (t ++ [LF]); split; [now left|exact H]|exists x; split; [now right|exact H]].
    + intros (x & [<-|I] & H); [now left|right; eauto].
Qed.

Lemma says_report s n r : proc_report s n r ->
  (says_timeout w r <-> timed_out s n \/ exists b ok shown, e_proc s n = PExit b ok shown /\ says_timeout w (shown_end n b shown)).
Proof.
  destruct L as (L0 & LS & LL). intros [(b & P & r' & S & ->)|(b & ok & shown & P & R)].
  - split; [intros _; left; exists b; exact P|]. intros _. exists r', [LF]. split; [reflexivity|]. split; [|right; now exists []].
    destruct (list_eq_dec ascii_dec b []) as [->|N].
    + destruct S as [(_ & ->)|[(K & _)|(K & _)]]; [|now destruct K|now destruct K]. change (lit ": ") with (lit ":" ++ lit " "). rewrite app_assoc. apply LS.
    + destruct (shown_buffer_ends n b r' S N) as (t & ->). now rewrite LL.
  - assert (X : says_timeout w r <-> says_timeout w (shown_end n b shown)).
    { unfold shown_end. destruct R as [(N & S)|(-> & ->)].
      - destruct S as [(-> & _)|[(_ & E & ->)|(_ & E & ->)]]; [now destruct N| |].
        + destruct b; [now destruct N|]. reflexivity.
        + destruct b as [|c b]; [now destruct N|]. rewrite !app_assoc. rewrite says_lf. now rewrite <- app_assoc.
      - rewrite !app_assoc. rewrite says_lf. reflexivity. }
    rewrite X. split; [intros H; right; eauto 6|]. intros [(b' & K)|(b' & ok' & sh' & K & H)]; [congruence|]. rewrite P in K. injection K as <- <- <-. exact H.
Qed.

End Word.

(** If no operation fails, the expression is found exactly if an entry has run into the time limit,
    or what is shown about an entry that has not reads like it. *)
Theorem C131_found :
  forall (word_end : str -> bool) (dir : path) (o : opts) (target : str) (rct : bool) (s : eio) (ns : list bytes) es r,
    local word_end ->
    e_exists s = true -> e_list s = Some (map Some ns) -> no_io_error false s ns ->
    for_each_entry dir o target rct false s = (es, r) ->
    r = Ret tt /\
    (is_match word_end [] (stdout es) = true <->
     exists n, In n ns /\ n <> lit "README.txt" /\ n <> lit ".state" /\
       (timed_out s n \/ exists b ok shown, e_proc s n = PExit b ok shown /\ says_timeout word_end (shown_end n b shown))).
Proof.
  intros w dir o target rct s ns es r L Ex Li Io E.
  destruct (PropsEntries.C50_each_entry_once dir o target rct false s ns Ex Li Io) as (es' & reports & E' & F & So & _).
  rewrite E in E'. injection E' as <- ->. split; [reflexivity|]. rewrite C131_regex, So.
  assert (Ends : Forall ends_lf reports).
  { clear - F. induction F as [|n r l rs H F IH]; constructor; [now apply proc_report_ends in H|exact IH]. }
  rewrite (says_concat w L _ Ends).
  transitivity (exists n, In n (entries ns) /\ (timed_out s n \/ exists b ok shown, e_proc s n = PExit b ok shown /\ says_timeout w (shown_end n b shown))).
  - clear - F L. induction F as [|n r l rs H F IH].
    + split; intros (x & [] & _).
    + split.
      * intros (x & [<-|I] & X); [exists n; split; [now left|now apply (says_report w L s n r H)]|].
        destruct IH as (IH & _). destruct (IH (ex_intro _ x (conj I X))) as (y & J & Y). exists y. split; [now right|exact Y].
      * intros (y & [<-|J] & Y); [exists r; split; [now left|now apply (says_report w L s n r H)]|].
        destruct IH as (_ & IH). destruct (IH (ex_intro _ y (conj J Y))) as (x & I & X). exists x. split; [now right|exact X].
  - split.
    + intros (n & I & X). apply PropsEntries.C50_entries_exact in I as (I & N1 & N2). exists n. auto.
    + intros (n & I & N1 & N2 & X). exists n. split; [|exact X]. now apply PropsEntries.C50_entries_exact.
Qed.
Print Assumptions C131_found.

(** ASCII letters, digits and the underscore, for the examples. *)
Definition ascii_word (s : str) : bool :=
  match rev s with
  | [] => false
  | c :: _ => let n := N_of_ascii c in ((48 <=? n) && (n <=? 57) || (65 <=? n) && (n <=? 90) || (n =? 95) || (97 <=? n) && (n <=? 122))%N
  end.
Lemma ascii_word_local : local ascii_word.
Proof.
  unfold ascii_word. split; [reflexivity|]. split.
  - intros t. rewrite rev_app_distr. reflexivity.
  - intros t c. rewrite rev_app_distr. cbn [rev]. destruct c as [|x c] using rev_ind; [reflexivity|]. rewrite rev_app_distr. reflexivity.
Qed.

Definition ex_eio (p : pres) : eio :=
  {| e_exists := true; e_list := Some [Some (lit "README.txt"); Some (lit "id:0")]; e_open := fun _ => true; e_raw := fun _ => None; e_proc := fun _ => p |}.

(** A target that fails at once can be reported like one that hangs, so that finding the expression
    does not show that an entry has run into the time limit. *)
Theorem C131_found_refuted :
  exists (word_end : str -> bool) (dir : path) (o : opts) (target : str) (s : eio),
    local word_end /\ (forall n, ~ timed_out s n) /\
    is_match word_end [] (stdout (fst (for_each_entry dir o target false false s))) = true.
Proof.
  exists ascii_word, [lit "hangs"], default_opts, (lit "parse"), (ex_eio (PExit (lit "called `Result::unwrap()` on an `Err` value: Timeout") false (lit "Exited(101)"))).
  split; [exact ascii_word_local|]. split; [intros n (b & K); discriminate K|]. vm_compute. reflexivity.
Qed.
Print Assumptions C131_found_refuted.

(** An entry that runs into the time limit, after or without output; one that does not. *)
Example C131_example :
  let go p := stdout (fst (for_each_entry [lit "hangs"] default_opts (lit "parse") false false (ex_eio p))) in
  go (PTimeout []) = lit "id:0: Timeout" ++ [LF] /\
  map (fun p => is_match ascii_word [] (go p))
    [PTimeout []; PTimeout (lit "args: x"); PExit [] true (lit "Exited(0)"); PExit (lit "ConnectionTimeout") false []; PExit (lit "Timeout!") false []]
  = [true; true; false; false; false].
Proof. vm_compute. repeat split. Qed.
