(** Discovery, filtering and flattening of fuzz targets in [cargo test-fuzz]. *)
From Coq Require Import List Ascii String Bool Arith Lia.
From Verif Require Import Base Utf8.
Import ListNotations.

(** cargo-test-fuzz/src/lib.rs:55 [ENTRY_SUFFIX]. *)
Definition entry_suffix : str := lit "_fuzz__::entry".

(** cargo-test-fuzz/src/lib.rs:635, the suffix of a test in a terse listing. *)
Definition test_suffix : str := lit ": test".

(** cargo-test-fuzz/src/lib.rs:635-641, the body of the loop of [targets]. *)
Definition target_of_line (l : str) : option str :=
  match strip_suffix test_suffix l with
  | None => None
  | Some l1 => strip_suffix entry_suffix l1
  end.

(** cargo-test-fuzz/src/lib.rs:632-643, the loop of [targets] over
    [BufRead::lines]; a line that is not UTF-8 is an error of [lines].
    The error text (line 634) is abbreviated. *)
Fixpoint targets_loop (pieces : list bytes) : outcome (list str) :=
  match pieces with
  | [] => Ret []
  | p :: ps =>
      if valid_utf8 p then
        match target_of_line (chomp p) with
        | None => targets_loop ps
        | Some t => bind (targets_loop ps) (fun ts => Ret (t :: ts))
        end
      else Err (lit "Could not get output")
  end.

(** cargo-test-fuzz/src/lib.rs:616-644 [targets]; the argument is what the
    executable wrote on stdout when run with [--list --format=terse]. *)
Definition targets (out : bytes) : outcome (list str) := targets_loop (split_inclusive out).

Section Exe.
  (** The type of executables; only their identity matters here. *)
  Context {E : Type}.

  (** cargo-test-fuzz/src/lib.rs:598-614 [executable_targets]; [listing e] is the
      stdout of executable [e]. *)
  Definition executable_targets (listing : E -> bytes) (exes : list E)
    : outcome (list (E * list str)) :=
    bind (mapM (fun e => bind (targets (listing e)) (fun ts => Ret (e, ts))) exes)
         (fun l => Ret (filter (fun et => match snd et with [] => false | _ => true end) l)).

  (** cargo-test-fuzz/src/lib.rs:664-670 [filter_targets]. *)
  Definition filter_targets (exact : bool) (pat : str) (ts : list str) : list str :=
    filter (fun t => (negb exact && contains pat t) || str_eqb t pat) ts.

  (** cargo-test-fuzz/src/lib.rs:646-662 [filter_executable_targets]. *)
  Fixpoint filter_executable_targets (exact : bool) (pat : str) (l : list (E * list str))
    : list (E * list str) :=
    match l with
    | [] => []
    | (e, ts) :: l' =>
        match filter_targets exact pat ts with
        | [] => filter_executable_targets exact pat l'
        | ts' => (e, ts') :: filter_executable_targets exact pat l'
        end
    end.

  (** cargo-test-fuzz/src/lib.rs:672-680 [match_message]. *)
  Definition match_message (exact : bool) (ztarget : option str) : str :=
    match ztarget with
    | None => []
    | Some pat =>
        lit " " ++ (if exact then lit "equal to" else lit "containing")
        ++ lit " `" ++ pat ++ lit "`"
    end.

  (** cargo-test-fuzz/src/lib.rs:1051-1071 [flatten_executable_targets]. *)
  Definition flatten_executable_targets (exact : bool) (ztarget : option str)
             (l : list (E * list str)) : outcome (list (E * str)) :=
    match flat_map (fun et => map (fun t => (fst et, t)) (snd et)) l with
    | [] => Err (lit "Found no fuzz targets" ++ match_message exact ztarget)
    | fl => Ret fl
    end.
End Exe.

(** * Specifications *)

(** A listing as a human would read it: lines with LF or CRLF terminators ([true]
    for CRLF), then possibly an unterminated last line. *)
Definition line_ok (l : str * bool) : Prop :=
  ~ In LF (fst l) /\ (snd l = false -> forall t, fst l <> t ++ [CR]).
Definition render (ls : list (str * bool)) (last : str) : bytes :=
  List.concat (map (fun l => fst l ++ (if snd l : bool then [CR; LF] else [LF])) ls) ++ last.
Definition all_lines (ls : list (str * bool)) (last : str) : list str :=
  map fst ls ++ match last with [] => [] | _ => [last] end.

(** The targets of a sequence of lines: [T] for each line [T_fuzz__::entry: test]. *)
Inductive listing_targets : list str -> list str -> Prop :=
| lt_nil : listing_targets [] []
| lt_entry T ls ts :
    listing_targets ls ts -> listing_targets ((T ++ lit "_fuzz__::entry: test") :: ls) (T :: ts)
| lt_other l ls ts :
    (forall T, l <> T ++ lit "_fuzz__::entry: test") ->
    listing_targets ls ts -> listing_targets (l :: ls) ts.

(** [pat] selects [t]. *)
Definition selects (exact : bool) (pat t : str) : Prop :=
  if exact then t = pat else exists a b, t = a ++ pat ++ b.

(** [l'] is [l] restricted to the elements satisfying [P], in order. *)
Inductive restrict {A} (P : A -> Prop) : list A -> list A -> Prop :=
| rs_nil : restrict P [] []
| rs_keep a l l' : P a -> restrict P l l' -> restrict P (a :: l) (a :: l')
| rs_skip a l l' : ~ P a -> restrict P l l' -> restrict P (a :: l) l'.

(** Selection from executables: each keeps its selected targets; executables with
    none disappear. *)
Inductive select_exes {E} (P : str -> Prop) : list (E * list str) -> list (E * list str) -> Prop :=
| se_nil : select_exes P [] []
| se_keep e ts t ts' l l' :
    restrict P ts (t :: ts') -> select_exes P l l' ->
    select_exes P ((e, ts) :: l) ((e, t :: ts') :: l')
| se_skip e ts l l' :
    restrict P ts [] -> select_exes P l l' -> select_exes P ((e, ts) :: l) l'.

(** All (executable, target) pairs in order. *)
Inductive pairs {E} : list (E * list str) -> list (E * str) -> Prop :=
| pr_nil : pairs [] []
| pr_done e l out : pairs l out -> pairs ((e, []) :: l) out
| pr_one e t ts l out : pairs ((e, ts) :: l) out -> pairs ((e, t :: ts) :: l) ((e, t) :: out).

(** * Proofs *)

Lemma line_piece l crlf s :
  line_ok (l, crlf) ->
  split_inclusive ((l ++ (if crlf : bool then [CR; LF] else [LF])) ++ s)
  = (l ++ (if crlf then [CR; LF] else [LF])) :: split_inclusive s.
Proof.
  intros [H1 H2]. simpl in *. destruct crlf.
  - replace ((l ++ [CR; LF]) ++ s) with ((l ++ [CR]) ++ LF :: s)
      by (rewrite <- !app_assoc; reflexivity).
    rewrite split_inclusive_line.
    + rewrite <- app_assoc. reflexivity.
    + intros H. apply in_app_or in H as [H|[H|[]]]; [auto|discriminate].
  - rewrite <- app_assoc. simpl. apply split_inclusive_line. exact H1.
Qed.

Lemma line_chomp l crlf :
  line_ok (l, crlf) -> chomp (l ++ (if crlf : bool then [CR; LF] else [LF])) = l.
Proof.
  intros [H1 H2]. simpl in *. destruct crlf.
  - replace (l ++ [CR; LF]) with ((l ++ [CR]) ++ [LF]) by (rewrite <- app_assoc; reflexivity).
    apply chomp_crlf.
  - apply chomp_lf. auto.
Qed.

Lemma lines_render ls last :
  Forall line_ok ls -> ~ In LF last -> lines (render ls last) = all_lines ls last.
Proof.
  intros H Hl. induction H as [|[l crlf] ls Hok Hls IH].
  - unfold render, all_lines. simpl. destruct last as [|c last]; [reflexivity|].
    unfold lines. rewrite split_inclusive_last; [|exact Hl|discriminate].
    simpl. now rewrite chomp_no_lf.
  - unfold render, all_lines, lines in *. cbn [map List.concat fst snd].
    rewrite <- app_assoc, line_piece by exact Hok. cbn [map].
    rewrite line_chomp by exact Hok. now rewrite IH.
Qed.

(** Every byte string is the rendering of some lines. *)
Lemma render_complete s :
  exists ls last, Forall line_ok ls /\ ~ In LF last /\ s = render ls last.
Proof.
  induction s as [|c s (ls & last & H1 & H2 & H3)].
  - exists [], []. repeat split; auto.
  - destruct (ascii_dec c LF) as [->|n].
    + exists (([], false) :: ls), last. split; [|split].
      * constructor; auto. split; [intros []|]. intros _ t H. destruct t; discriminate.
      * exact H2.
      * unfold render in *. simpl. congruence.
    + destruct ls as [|[l b] ls].
      * exists [], (c :: last). split; [auto|]. split.
        -- intros [H|H]; [congruence|auto].
        -- unfold render in *; simpl in *. congruence.
      * inversion H1 as [|x xs [Ha Hb] Hc]; subst. simpl in Ha, Hb.
        destruct b.
        -- exists ((c :: l, true) :: ls), last. split; [|split].
           ++ constructor; auto. split; simpl; [intros [K|K]; [congruence|auto]|discriminate].
           ++ exact H2.
           ++ reflexivity.
        -- destruct l as [|d l].
           ++ destruct (ascii_dec c CR) as [->|nc].
              ** exists (([], true) :: ls), last. split; [|split].
                 --- constructor; auto. split; simpl; [intros []|discriminate].
                 --- exact H2.
                 --- reflexivity.
              ** exists (([c], false) :: ls), last. split; [|split].
                 --- constructor; auto. split; simpl; [intros [K|[]]; congruence|].
                     intros _ t H. destruct t as [|x [|y t]]; try discriminate.
                     injection H as ->. contradiction.
                 --- exact H2.
                 --- reflexivity.
           ++ exists ((c :: d :: l, false) :: ls), last. split; [|split].
              ** constructor; auto. split; simpl; [intros [K|K]; [congruence|auto]|].
                 intros _ t H. destruct t as [|x t]; [discriminate|].
                 injection H as -> H. eapply Hb; eauto.
              ** exact H2.
              ** reflexivity.
Qed.

Lemma target_of_line_spec l T :
  target_of_line l = Some T <-> l = T ++ lit "_fuzz__::entry: test".
Proof.
  unfold target_of_line. change (lit "_fuzz__::entry: test") with (entry_suffix ++ test_suffix).
  destruct (strip_suffix test_suffix l) as [l1|] eqn:E.
  - apply strip_suffix_spec in E. subst l. rewrite strip_suffix_spec. split.
    + intros ->. now rewrite app_assoc.
    + rewrite app_assoc. intros H. apply app_inv_tail in H. exact H.
  - split; [discriminate|]. intros ->. rewrite strip_suffix_none in E.
    exfalso. apply (E (T ++ entry_suffix)). now rewrite app_assoc.
Qed.

Lemma targets_loop_valid ps :
  Forall (fun p => valid_utf8 p = true) ps ->
  exists ts, targets_loop ps = Ret ts /\ listing_targets (map chomp ps) ts.
Proof.
  induction 1 as [|p ps Hp Hps (ts & IH1 & IH2)]; simpl.
  - exists []. split; [reflexivity|constructor].
  - rewrite Hp. destruct (target_of_line (chomp p)) as [T|] eqn:E.
    + rewrite IH1. simpl. exists (T :: ts). split; [reflexivity|].
      apply target_of_line_spec in E. rewrite E. constructor. exact IH2.
    + exists ts. split; [exact IH1|]. apply lt_other; [|exact IH2].
      intros T H. apply target_of_line_spec in H. congruence.
Qed.

Lemma targets_loop_invalid ps :
  ~ Forall (fun p => valid_utf8 p = true) ps -> exists e, targets_loop ps = Err e.
Proof.
  induction ps as [|p ps IH]; intros H; simpl.
  - exfalso; apply H; constructor.
  - destruct (valid_utf8 p) eqn:Hp; [|eauto].
    destruct IH as [e He]. { intros K; apply H; constructor; auto. }
    destruct (target_of_line (chomp p)); rewrite He; simpl; eauto.
Qed.

Lemma pieces_valid ls last :
  Forall line_ok ls -> ~ In LF last ->
  (Forall (fun p => valid_utf8 p = true) (split_inclusive (render ls last))
   <-> Forall (fun l => valid_utf8 l = true) (all_lines ls last)).
Proof.
  intros H Hl. unfold all_lines. induction H as [|[l crlf] ls Hok Hls IH].
  - unfold render; simpl. destruct last; [reflexivity|].
    rewrite split_inclusive_last; [reflexivity|exact Hl|discriminate].
  - unfold render in *. cbn [map List.concat fst snd app] in *.
    rewrite <- app_assoc, line_piece by exact Hok.
    assert (V : valid_utf8 (l ++ (if crlf then [CR; LF] else [LF])) = true <-> valid_utf8 l = true).
    { split; intros V.
      - assert (B : is_char_boundary (l ++ (if crlf then [CR; LF] else [LF])) (List.length l) = true).
        { unfold is_char_boundary. destruct (List.length l) eqn:EL; [reflexivity|].
          rewrite <- EL, nth_error_app2, Nat.sub_diag by lia. destruct crlf; reflexivity. }
        destruct (valid_firstn _ _ V B) as [V1 _].
        rewrite firstn_app, Nat.sub_diag, firstn_all in V1. simpl in V1.
        now rewrite app_nil_r in V1.
      - rewrite valid_app by exact V. destruct crlf; reflexivity. }
    split; intros F; inversion F; subst; constructor; tauto.
Qed.

Lemma targets_exact ls last :
  Forall line_ok ls -> ~ In LF last ->
  Forall (fun l => valid_utf8 l = true) (all_lines ls last) ->
  exists ts, targets (render ls last) = Ret ts /\ listing_targets (all_lines ls last) ts.
Proof.
  intros H1 H2 H3. unfold targets. rewrite <- lines_render by assumption.
  apply targets_loop_valid. apply pieces_valid; assumption.
Qed.

Lemma targets_invalid ls last :
  Forall line_ok ls -> ~ In LF last ->
  ~ Forall (fun l => valid_utf8 l = true) (all_lines ls last) ->
  exists e, targets (render ls last) = Err e.
Proof.
  intros H1 H2 H3. apply targets_loop_invalid. rewrite pieces_valid; assumption.
Qed.

Lemma listing_targets_fun ls ts ts' :
  listing_targets ls ts -> listing_targets ls ts' -> ts = ts'.
Proof.
  intros H; revert ts'; induction H as [|T ls ts H IH|l ls ts Hn H IH]; intros ts' H'.
  - inversion H'; reflexivity.
  - inversion H' as [|T' ls' ts2 Hr E1 E2|l' ls' ts2 Hn' Hr E1 E2]; subst.
    + apply app_inv_tail in E1. subst. f_equal. auto.
    + exfalso; eapply Hn'; eauto.
  - inversion H' as [|T' ls' ts2 Hr E1 E2|l' ls' ts2 Hn' Hr E1 E2]; subst; auto.
    exfalso; eapply Hn; eauto.
Qed.

Lemma selects_bool exact pat t :
  ((negb exact && contains pat t) || str_eqb t pat)%bool = true <-> selects exact pat t.
Proof.
  unfold selects. destruct exact; simpl.
  - apply str_eqb_eq.
  - rewrite orb_true_iff, contains_spec, str_eqb_eq. split.
    + intros [H|H]; [exact H|subst t]. exists [], []. now rewrite app_nil_r.
    + intros H; left; exact H.
Qed.

Lemma filter_restrict {A} (P : A -> Prop) f (l : list A) :
  (forall a, f a = true <-> P a) -> restrict P l (filter f l).
Proof.
  intros H. induction l as [|a l IH]; simpl; [constructor|].
  destruct (f a) eqn:E; constructor; auto.
  - apply H; exact E.
  - intros K; apply H in K; congruence.
Qed.

Lemma filter_targets_restrict exact pat ts :
  restrict (selects exact pat) ts (filter_targets exact pat ts).
Proof. apply filter_restrict. intros t. apply selects_bool. Qed.

Lemma filter_executable_targets_select E exact pat (l : list (E * list str)) :
  select_exes (selects exact pat) l (filter_executable_targets exact pat l).
Proof.
  induction l as [|[e ts] l IH]; simpl; [constructor|].
  pose proof (filter_targets_restrict exact pat ts) as H.
  destruct (filter_targets exact pat ts); constructor; auto.
Qed.

Lemma flat_map_pairs E (l : list (E * list str)) :
  pairs l (flat_map (fun et => map (fun t => (fst et, t)) (snd et)) l).
Proof.
  induction l as [|[e ts] l IH]; simpl; [constructor|].
  induction ts as [|t ts IHt]; simpl; constructor; auto.
Qed.

Lemma flatten_spec E exact zt (l : list (E * list str)) :
  (Forall (fun et => snd et = []) l /\
   flatten_executable_targets exact zt l
   = Err (lit "Found no fuzz targets" ++ match_message exact zt))
  \/ (exists out, out <> [] /\ flatten_executable_targets exact zt l = Ret out /\ pairs l out).
Proof.
  unfold flatten_executable_targets. pose proof (flat_map_pairs E l) as H.
  destruct (flat_map _ l) as [|x xs] eqn:F.
  - left. split; [|reflexivity]. clear F. remember [] as out eqn:Eo.
    induction H; try discriminate; constructor; auto.
  - right. exists (x :: xs). repeat split; [discriminate|exact H].
Qed.

Lemma mapM_listing E (listing : E -> bytes) exes l :
  mapM (fun e => bind (targets (listing e)) (fun ts => Ret (e, ts))) exes = Ret l ->
  map fst l = exes /\ Forall (fun et => targets (listing (fst et)) = Ret (snd et)) l.
Proof.
  intros H. apply mapM_ret in H. induction H as [|e [e' ts] es l He Hl [IH1 IH2]]; simpl.
  - auto.
  - destruct (targets (listing e)) as [ts'| |] eqn:F; try discriminate.
    simpl in He. injection He as <- <-. split; [congruence|]. constructor; auto.
Qed.
