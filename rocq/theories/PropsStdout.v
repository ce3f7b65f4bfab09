(** Theorems about what is on stdout when several targets are shown (C126). *)
From Coq Require Import String List Ascii Bool Arith NArith Lia.
From stdpp Require Import gmap strings.
From Verif Require Import Base Utf8 Lossy Decimal Env Dirs Opts Targets Semver Sha1 Fs Write Meta FuzzCmd Build AutoGen Run RunFacts PropsRun PropsRun2 PropsRun4 PropsRun5 Stdout.
From Verif Require Consolidate Entries PropsEntries Lines Sched Ui.
Import ListNotations.
Local Open Scope nat_scope.

(** Nothing is left of a line. *)
Definition at_line (s : str) : Prop := s = [] \/ exists t, s = t ++ [LF].

Lemma at_line_app a b : at_line a -> at_line b -> at_line (a ++ b).
Proof. intros A [->|(t & ->)]; [now rewrite app_nil_r|]. right. exists (a ++ t). now rewrite app_assoc. Qed.

Lemma printed_app a b : printed (a ++ b) = printed a ++ printed b.
Proof. unfold printed. now rewrite map_app, concat_app. Qed.

Lemma printed_lines t : (forall x tg d es, In (ATarget x tg d es) t -> at_line (Entries.stdout es)) -> at_line (printed t).
Proof.
  induction t as [|a t IH]; intros H; [now left|]. change (a :: t) with ([a] ++ t). rewrite printed_app. apply at_line_app.
  - unfold printed. cbn [map List.concat]. rewrite app_nil_r. destruct a; try now left.
    + right. eexists. reflexivity.
    + eapply H. now left.
  - apply IH. intros x tg d es I. eapply H. right. exact I.
Qed.

(** What is shown is not read from the files of the generic arguments, or none of them is empty. *)
Definition ends_lines (w : world) (o : opts) : Prop :=
  (forall ob, chosen_object o = Some ob -> ob <> ImplGenericArgs_ /\ ob <> GenericArgs_) \/
  (forall x tg n, Entries.e_raw (w_eio w x tg) n <> Some []).

Lemma entries_end w o m m' t x tg d es : run w o m = (m', t, ROk tt) -> ends_lines w o -> In (ATarget x tg d es) t -> at_line (Entries.stdout es).
Proof.
  intros E N I. pose proof (C100_nothing_ignored w o m m' t E) as S. rewrite Forall_forall in S. apply elem_of_list_In in I. specialize (S _ I). cbn [succeeded] in S.
  destruct S as (b & rct & raw & Ob & FD & FE).
  assert (Ch : chosen_object o = Some b) by (unfold chosen_object; destruct Ob as [->|[[-> ->]|(-> & -> & ->)]]; reflexivity).
  destruct (Entries.for_each_entry_spec _ _ _ _ _ _ _ _ FE) as [(_ & -> & _)|[(_ & _ & -> & _)|(done & rest & reports & _ & _ & F & -> & _)]]; try now left.
  assert (R : forall n r, Entries.report raw (w_eio w x tg) n r -> at_line r).
  { intros n r Hr. destruct (PropsEntries.C50_report_shape raw (w_eio w x tg) n r Hr) as (_ & _ & R0 & R1). destruct raw.
    - destruct N as [N|N].
      + exfalso. destruct (N b Ch) as [N1 N2]. rewrite (PropsEntries.C50_directory) in FD. destruct b; try congruence; destruct (dir_from_target _ _ _ _ _); discriminate FD.
      + destruct Hr as (c & Rc & _). right. apply (R1 c eq_refl Rc). intros ->. exact (N x tg n Rc).
    - right. now apply R0. }
  induction F as [|n r ns rs Hr F IH]; [now left|]. cbn [List.concat]. apply at_line_app; [now apply (R n)|exact IH].
Qed.

(** C126: every heading begins a line. *)
Theorem C126_own_line :
  forall (w : world) (o : opts) (m m' : fs) (t t1 t2 : list act) (h : str),
    run w o m = (m', t, ROk tt) -> ends_lines w o -> t = t1 ++ AHeading h :: t2 ->
    exists a b, printed t = a ++ h ++ [LF] ++ b /\ at_line a.
Proof.
  intros w o m m' t t1 t2 h E N ->. exists (printed t1), (printed t2). split.
  - change (AHeading h :: t2) with ([AHeading h] ++ t2). rewrite !printed_app. f_equal. unfold printed at 1. cbn [map List.concat]. now rewrite app_nil_r, <- app_assoc.
  - apply printed_lines. intros x tg d es I. apply (entries_end w o m m' _ x tg d es E N). apply in_app_iff. now left.
Qed.
Print Assumptions C126_own_line.

(** C126: a heading is the name, a space and at least one dash exactly if the width of the
    terminal is not known, or leaves room for it. *)
Theorem C126_dashes :
  forall (width : option nat) (tg : str),
    (exists k, heading width tg = tg ++ lit " " ++ repeat "-"%char (S k)) <->
    (forall n, width = Some n -> List.length tg + 2 <= n).
Proof.
  intros width tg. unfold heading. destruct width as [n|].
  - split.
    + intros (k & E) n' K. injection K as <-. apply (f_equal (@List.length _)) in E. rewrite firstn_length, !app_length in E. cbn [lit list_ascii_of_string List.length] in E.
      rewrite !repeat_length in E. lia.
    + intros H. specialize (H n eq_refl). exists (n - (List.length tg + 2)). rewrite firstn_app, firstn_all2 by lia. f_equal.
      rewrite firstn_app, firstn_all2 by (cbn; lia). f_equal. cbn [lit list_ascii_of_string List.length].
      assert (F : forall a b, a <= b -> firstn a (repeat "-"%char b) = repeat "-"%char a).
      { intros a. induction a as [|a IH]; intros [|b] L; try reflexivity; [lia|]. cbn [repeat firstn]. f_equal. apply IH. lia. }
      rewrite F by lia. f_equal. lia.
  - split; [discriminate|]. intros _. exists 2. reflexivity.
Qed.
Print Assumptions C126_dashes.

(** C126: so the test's expression finds each of several targets shown, if the terminal is wide
    enough or there is none. *)
Theorem C126_found :
  forall (w : world) (o : opts) (m m' : fs) (t : list act) (tg : str),
    Ui.streaming (w_strip w) -> run w o m = (m', t, ROk tt) -> asks o JShow -> ends_lines w o ->
    (forall x tg dir es, In (ATarget x tg dir es) t -> plain (w_strip w) tg) ->
    2 <= List.length (flat_map shown_target t) -> In tg (flat_map shown_target t) ->
    (forall n, w_width w = Some n -> List.length tg + 2 <= n) ->
    finds_heading tg (printed t).
Proof.
  intros w o m m' t tg Hs E A N P L I Wd. pose proof (C96_headings w o m m' t Hs E A P) as H.
  assert (H' : flat_map shown_item t = flat_map (fun tg => [inl (heading (w_width w) tg); inr tg]) (flat_map shown_target t)).
  { rewrite H. destruct (flat_map shown_target t) as [|x [|y l]]; [reflexivity|cbn in L; lia|reflexivity]. }
  assert (Ih : In (inl (heading (w_width w) tg)) (flat_map shown_item t)).
  { rewrite H'. apply in_flat_map. exists tg. split; [exact I|now left]. }
  apply in_flat_map in Ih as (a & Ia & Ha). assert (a = AHeading (heading (w_width w) tg)) as ->.
  { destruct a; cbn [shown_item In] in Ha; try contradiction; destruct Ha as [Ha|[]]; [|discriminate Ha]. injection Ha as ->. reflexivity. }
  apply in_split in Ia as (t1 & t2 & Et).
  destruct (C126_own_line w o m m' t t1 t2 _ E N Et) as (a & b & -> & La). destruct (proj2 (C126_dashes (w_width w) tg) Wd) as (k & ->).
  exists a, k, ([LF] ++ b). split; [now rewrite <- !app_assoc|]. split; [exact La|]. right. now exists b.
Qed.
Print Assumptions C126_found.

(** [ex_wide] with an entry in every directory, of which the file is empty. *)
Definition ex_empty (listing : bytes) : world :=
  let w := ex_wide listing None in
  {| w_cargo := w_cargo w; w_parse := w_parse w; w_afl := w_afl w; w_terminal := false; w_build := w_build w;
     w_listing := w_listing w; w_self := w_self w; w_show := w_show w; w_id := None; w_io := w_io w; w_width := None; w_clean := true;
     w_eio := fun _ _ => {| Entries.e_exists := true; Entries.e_list := Some [Some (lit "da39")]; Entries.e_open := fun _ => true;
                            Entries.e_raw := fun _ => Some []; Entries.e_proc := fun _ => Entries.PFail [] |};
     w_lcov := Some true; w_report := w_report w; w_gen := w_gen w; w_cpus := 4; w_checks := true;
     w_foreground := true; w_strip := w_strip w; w_session := [] |}.

Lemma no_heading s name (l : list str) : ~ In LF name ->
  (forall x k, In x l -> x <> name ++ lit " " ++ repeat "-"%char (S k)) ->
  (forall x, In x l -> ~ In LF x) -> s = List.concat (map (fun x => x ++ [LF]) l) -> ~ finds_heading name s.
Proof.
  intros Nn H Nl -> (a & k & b & E & A & B).
  set (h := name ++ lit " " ++ repeat "-"%char (S k)).
  assert (Nh : ~ In LF h).
  { unfold h. rewrite !in_app_iff. intros [K|[K|K]]; [contradiction|destruct K as [K|[]]; discriminate K|apply repeat_spec in K; discriminate K]. }
  assert (E' : List.concat (map (fun x => x ++ [LF]) l) = a ++ h ++ b) by (rewrite E; unfold h; now rewrite <- !app_assoc).
  assert (Hh : forall x, In x l -> x <> h) by (intros x I; now apply H).
  assert (Nx : h <> []) by (unfold h; destruct name; discriminate).
  clear E H. clearbody h. revert a E' A. induction l as [|x l IH]; intros a E A.
  - cbn in E. symmetry in E. apply app_eq_nil in E as [_ E]. apply app_eq_nil in E as [E _]. contradiction.
  - cbn [map List.concat] in E. rewrite <- app_assoc in E.
    assert (Nlx : ~ In LF x) by (apply Nl; now left).
    destruct A as [->|(t & ->)].
    + cbn [app] in E. assert (X : x = h).
      { clear -E Nlx Nh B. revert h Nh E. induction x as [|c x IH]; intros [|d h] Nh E; cbn [app] in E.
        - reflexivity.
        - injection E as <- _. destruct Nh. now left.
        - destruct B as [->|(t & ->)]; [discriminate E|]. injection E as -> _. destruct Nlx. now left.
        - injection E as <- E. f_equal. apply IH; auto; intros I; [apply Nlx|apply Nh]; now right. }
      exact (Hh x (or_introl eq_refl) X).
    + assert (X : exists t', t ++ [LF] = x ++ [LF] ++ t' /\ at_line t').
      { clear -E Nlx. rewrite <- app_assoc in E. revert t E. induction x as [|c x IH]; intros t E; cbn [app] in E.
        - destruct t as [|d t]; cbn [app] in E; [exists []; split; [reflexivity|now left]|]. injection E as <- _. exists (t ++ [LF]). split; [reflexivity|right; eauto].
        - destruct t as [|d t]; cbn [app] in E; injection E as -> E; [destruct Nlx; now left|].
          destruct (IH (fun I => Nlx (or_intror I)) t E) as (t' & K & L). exists t'. split; [|exact L]. cbn [app]. now rewrite K. }
      destruct X as (t' & K & L). rewrite K, <- !app_assoc in E. apply app_inv_head in E. apply app_inv_head in E.
      apply (IH (fun y I => Nl y (or_intror I)) (fun y I => Hh y (or_intror I)) t' E). exact L.
Qed.

Lemma finds_more name s : finds_heading name s -> finds_heading name (s ++ [LF]).
Proof.
  intros (a & k & b & -> & A & B). exists a, k, (b ++ [LF]). split; [now rewrite <- !app_assoc|]. split; [exact A|].
  right. destruct B as [->|(t & ->)]; eexists; reflexivity.
Qed.

(** C126: with --display=generic-args, the heading of a target is not at the beginning of a line
    if the target before it has an instance without type parameters, so the expression does not
    find it. *)
Theorem C126_generic_refuted :
  exists (w : world) (m' : fs) (t : list act) (tg : str),
    run w (ex_o (Some GenericArgs_) None false) ∅ = (m', t, ROk tt) /\ In tg (flat_map shown_target t) /\
    2 <= List.length (flat_map shown_target t) /\ w_width w = None /\ ~ finds_heading tg (printed t).
Proof.
  exists (ex_empty (ex_listing (lit "f") (lit "g"))). do 2 eexists. exists (lit "g").
  split; [vm_compute; reflexivity|]. split; [vm_compute; auto|]. split; [vm_compute; lia|]. split; [reflexivity|].
  intros F. apply finds_more in F. revert F. apply (no_heading _ (lit "g") [lit "f ---"; lit "da39: g ---"; lit "da39: "]).
  - intros [K|[]]. discriminate K.
  - intros x k [<-|[<-|[<-|[]]]] K; discriminate K.
  - intros x I K. assert (Q : existsb (Ascii.eqb LF) x = true) by (apply existsb_exists; exists LF; split; [exact K|apply Ascii.eqb_refl]).
    destruct I as [<-|[<-|[<-|[]]]]; discriminate Q.
  - vm_compute. reflexivity.
Qed.
Print Assumptions C126_generic_refuted.

(** Without a terminal, on one of nine columns, and with empty files. *)
Example C126_example :
  let out o w := match run w o ∅ with (_, t, r) => (printed t, r) end in
  out (ex_o (Some Corpus_) None false) (ex_wide (ex_listing (lit "target_0") (lit "target_1")) None)
    = (lit "target_0 ---" ++ [LF] ++ lit "target_1 ---" ++ [LF], ROk tt) /\ out (ex_o (Some Corpus_) None false) (ex_wide (ex_listing (lit "target_0") (lit "target_1")) (Some 9))
    = (lit "target_0 " ++ [LF] ++ lit "target_1 " ++ [LF], ROk tt) /\ out (ex_o (Some GenericArgs_) None false) (ex_empty (ex_listing (lit "f") (lit "g")))
    = (lit "f ---" ++ [LF] ++ lit "da39: g ---" ++ [LF] ++ lit "da39: ", ROk tt).
Proof. vm_compute. auto. Qed.
