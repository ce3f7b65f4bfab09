(** Reading the output of a fuzzer through a non-blocking pipe. *)
From Coq Require Import List Ascii String Bool Arith NArith Lia.
From Verif Require Import Base Utf8 Targets.
Import ListNotations.

(** The result of one [receiver.read(&mut buf)] (cargo-test-fuzz/src/lib.rs:1094-1099):
    data (at least one byte), end of file, nothing available now, or an error.
    Simplification: the 4096-byte limit of one read is not represented (data may
    have any length, so theorems cover the limited reads too). *)
Inductive read_result := RData (b : bytes) | REof | RBlock | RErr.

(** cargo-test-fuzz/src/lib.rs:1092-1101, the loop of [read_lines]: [unprinted] is
    [self.unprinted_data], [rs] are the results of the successive reads ([None]: an
    error is returned).  A list that ends early is read as "nothing available". *)
Fixpoint read_loop (unprinted : bytes) (rs : list read_result) : option bytes :=
  match rs with
  | [] => Some unprinted
  | RData b :: rs' => match b with [] => Some unprinted | _ => read_loop (unprinted ++ b) rs' end
  | REof :: _ => Some unprinted
  | RBlock :: _ => Some unprinted
  | RErr :: _ => None
  end.

(** [Iterator::position(|&c| c == b'\n')] (std). *)
Fixpoint position_lf (s : bytes) : option nat :=
  match s with
  | [] => None
  | c :: s' => if ascii_dec c LF then Some 0 else option_map S (position_lf s')
  end.

(** cargo-test-fuzz/src/lib.rs:1091-1109 [Child::read_lines]: the new
    [unprinted_data] and the returned text. *)
Definition read_lines (unprinted : bytes) (rs : list read_result) : outcome (bytes * str) :=
  match read_loop unprinted rs with
  | None => Err (lit "read")
  | Some u =>
      match position_lf (rev u) with
      | Some i =>
          let n := List.length u - i in
          if valid_utf8 (firstn n u) then Ret (skipn n u, firstn n u) else Err (lit "utf8")
      | None => Ret (u, [])
      end
  end.

(** The two markers, cargo-test-fuzz/src/lib.rs:1354 and 1357. *)
Definition time_limit_marker : str := lit "Time limit was reached".
Definition aborted_marker : str := lit "+++ Testing aborted programmatically +++".

(** cargo-test-fuzz/src/lib.rs:1352-1366, what one event does to a child's data:
    the lines found are handed to [print_line], and the flags are updated. *)
Record cdata := {
  cd_unprinted : bytes;
  cd_time_limit : bool;
  cd_aborted : bool;
}.

Definition cd_init : cdata := {| cd_unprinted := []; cd_time_limit := false; cd_aborted := false |}.

Definition scan (d : cdata) (l : str) : cdata :=
  {| cd_unprinted := cd_unprinted d;
     cd_time_limit := if contains time_limit_marker l then true else cd_time_limit d;
     cd_aborted := if contains aborted_marker l then true else cd_aborted d |}.

Definition read_event (d : cdata) (rs : list read_result) : outcome (cdata * list str) :=
  bind (read_lines (cd_unprinted d) rs)
       (fun us => let ls := lines (snd us) in
          Ret (fold_left scan ls {| cd_unprinted := fst us; cd_time_limit := cd_time_limit d;
                                    cd_aborted := cd_aborted d |}, ls)).

(** Successive events of one child: the final data and all lines, in order. *)
Fixpoint read_events (d : cdata) (evs : list (list read_result)) : outcome (cdata * list str) :=
  match evs with
  | [] => Ret (d, [])
  | rs :: evs' =>
      bind (read_event d rs) (fun r =>
        bind (read_events (fst r) evs') (fun r' => Ret (fst r', snd r ++ snd r')))
  end.

(** * Specification *)

(** The bytes delivered by the reads of one event. *)
Fixpoint delivered (rs : list read_result) : bytes :=
  match rs with
  | RData (c :: b) :: rs' => (c :: b) ++ delivered rs'
  | _ => []
  end.

(** No read of the event fails. *)
Fixpoint readable (rs : list read_result) : Prop :=
  match rs with
  | RData (_ :: _) :: rs' => readable rs'
  | RErr :: _ => False
  | _ => True
  end.

(** [d] splits into complete lines [a] and an incomplete rest [b]. *)
Definition splits (d a b : bytes) : Prop :=
  d = a ++ b /\ ~ In LF b /\ (a = [] \/ exists a', a = a' ++ [LF]).

(** * Proofs *)

Lemma position_lf_some s i :
  position_lf s = Some i -> exists a b, s = a ++ LF :: b /\ ~ In LF a /\ List.length a = i.
Proof.
  revert i; induction s as [|c s IH]; intros i; simpl; [discriminate|].
  destruct (ascii_dec c LF) as [->|n].
  - intros [= <-]. exists [], s. simpl; auto.
  - destruct (position_lf s) as [k|]; [|discriminate]. simpl. intros [= <-].
    destruct (IH k eq_refl) as (a & b & -> & H & <-). exists (c :: a), b. simpl.
    repeat split; auto. intros [E|E]; [congruence|contradiction].
Qed.

Lemma position_lf_none s : position_lf s = None -> ~ In LF s.
Proof.
  induction s as [|c s IH]; simpl; [intros _ []|].
  destruct (ascii_dec c LF) as [->|n]; [discriminate|].
  destruct (position_lf s); [discriminate|]. intros _ [E|E]; [congruence|]. now apply IH.
Qed.

Lemma splits_exists d : exists a b, splits d a b.
Proof.
  destruct (position_lf (rev d)) as [i|] eqn:E.
  - apply position_lf_some in E as (a & b & E & Na & _).
    exists (rev b ++ [LF]), (rev a). split; [|split].
    + rewrite <- (rev_involutive d), E, rev_app_distr. simpl. reflexivity.
    + intros I. apply in_rev in I. contradiction.
    + right. eauto.
  - apply position_lf_none in E. exists [], d. repeat split; auto.
    intros I. apply E. now apply -> in_rev.
Qed.

Lemma splits_unique d a b a' b' : splits d a b -> splits d a' b' -> a = a' /\ b = b'.
Proof.
  intros (E & N & C) (E' & N' & C').
  assert (K : forall x y x' y' : bytes, x ++ y = x' ++ y' -> ~ In LF y -> (exists t, x' = t ++ [LF]) -> List.length x' <= List.length x).
  { intros x y x' y' H Ny [t ->]. destruct (le_lt_dec (List.length (t ++ [LF])) (List.length x)) as [L|L]; [exact L|].
    exfalso. apply Ny. rewrite app_length in L. simpl in L.
    assert (Hy : y = skipn (List.length x) ((t ++ [LF]) ++ y')).
    { rewrite <- H, skipn_app, Nat.sub_diag, skipn_all. reflexivity. }
    rewrite <- app_assoc, skipn_app in Hy. rewrite Hy. apply in_or_app. right.
    replace (List.length x - List.length t) with 0 by lia. left. reflexivity. }
  assert (L : List.length a = List.length a').
  { subst d. apply Nat.le_antisymm.
    - destruct C as [->|C]; [simpl; lia|]. eapply K; [symmetry; exact E'|exact N'|exact C].
    - destruct C' as [->|C']; [simpl; lia|]. eapply K; [exact E'|exact N|exact C']. }
  subst d. split.
  - apply (f_equal (firstn (List.length a))) in E'. rewrite L in E' at 2.
    now rewrite !firstn_app, !Nat.sub_diag, !firstn_all, !firstn_O, !app_nil_r in E'.
  - apply (f_equal (skipn (List.length a))) in E'. rewrite L in E' at 2.
    now rewrite !skipn_app, !Nat.sub_diag, !skipn_all in E'.
Qed.

Lemma read_loop_spec u rs : readable rs -> read_loop u rs = Some (u ++ delivered rs).
Proof.
  revert u; induction rs as [|r rs IH]; intros u H; simpl.
  - now rewrite app_nil_r.
  - destruct r as [[|c b]| | |]; simpl in *; rewrite ?app_nil_r; auto; [|contradiction].
    rewrite IH by exact H. now rewrite <- app_assoc.
Qed.

Lemma read_loop_err u rs : ~ readable rs -> read_loop u rs = None.
Proof.
  revert u; induction rs as [|r rs IH]; intros u H; simpl in *; [exfalso; apply H; exact I|].
  destruct r as [[|c b]| | |]; simpl in *; auto; exfalso; apply H; exact I.
Qed.

Lemma read_lines_spec u rs a b :
  readable rs -> splits (u ++ delivered rs) a b ->
  read_lines u rs = if valid_utf8 a then Ret (b, a) else Err (lit "utf8").
Proof.
  intros R S. unfold read_lines. rewrite read_loop_spec by exact R.
  set (d := u ++ delivered rs) in *. clearbody d.
  destruct (position_lf (rev d)) as [i|] eqn:E.
  - apply position_lf_some in E as (x & y & E & Nx & <-).
    assert (Ed : d = (rev y ++ [LF]) ++ rev x).
    { rewrite <- (rev_involutive d), E, rev_app_distr. simpl. reflexivity. }
    assert (S' : splits d (rev y ++ [LF]) (rev x)).
    { split; [exact Ed|]. split; [intros I; apply in_rev in I; contradiction|right; eauto]. }
    destruct (splits_unique _ _ _ _ _ S S') as [-> ->].
    assert (Hn : List.length d - List.length x = List.length (rev y ++ [LF])).
    { rewrite Ed, !app_length, !rev_length. simpl. lia. }
    rewrite Hn, Ed, firstn_app, skipn_app, Nat.sub_diag, firstn_all, skipn_all, firstn_O, app_nil_r. reflexivity.
  - apply position_lf_none in E.
    assert (S' : splits d [] d).
    { repeat split; auto. intros I. apply E. now apply -> in_rev. }
    destruct (splits_unique _ _ _ _ _ S S') as [-> ->]. reflexivity.
Qed.

(** A line feed separates valid UTF-8 texts. *)
Lemma lf_not_cont : is_cont LF = false.
Proof. reflexivity. Qed.

Lemma valid_lf x y : valid_utf8 ((x ++ [LF]) ++ y) = valid_utf8 (x ++ [LF]) && valid_utf8 y.
Proof.
  destruct (valid_utf8 (x ++ [LF])) eqn:E.
  - rewrite valid_app by exact E. reflexivity.
  - destruct (valid_utf8 ((x ++ [LF]) ++ y)) eqn:V; [|reflexivity]. exfalso.
    rewrite <- app_assoc in V. simpl in V.
    assert (B : is_char_boundary (x ++ LF :: y) (List.length x) = true).
    { unfold is_char_boundary. destruct (List.length x) eqn:L; [reflexivity|].
      rewrite nth_error_app2 by lia. rewrite L, Nat.sub_diag. reflexivity. }
    destruct (valid_firstn _ _ V B) as [V1 _].
    rewrite firstn_app, firstn_all, Nat.sub_diag, firstn_O, app_nil_r in V1.
    rewrite valid_app in E by exact V1. discriminate.
Qed.

Lemma valid_splits d a b a2 b2 :
  (a = [] \/ exists t, a = t ++ [LF]) -> splits (b ++ d) a2 b2 ->
  valid_utf8 (a ++ a2) = valid_utf8 a && valid_utf8 a2.
Proof. intros [->|[t ->]] _; [reflexivity|apply valid_lf]. Qed.

Lemma splits_app d1 d2 a1 b1 a2 b2 :
  splits d1 a1 b1 -> splits (b1 ++ d2) a2 b2 -> splits (d1 ++ d2) (a1 ++ a2) b2.
Proof.
  intros (-> & N & C) (E & N2 & C2). split; [|split; [exact N2|]].
  - rewrite <- !app_assoc. now rewrite E.
  - destruct C2 as [->|[t ->]].
    + rewrite app_nil_r. exact C.
    + right. exists (a1 ++ t). now rewrite app_assoc.
Qed.

Lemma lines_complete_app a1 a2 : (a1 = [] \/ exists t, a1 = t ++ [LF]) -> lines (a1 ++ a2) = lines a1 ++ lines a2.
Proof. intros [->|[t ->]]; [reflexivity|]. apply lines_app. Qed.

Definition has_line (m : str) (ls : list str) : bool := existsb (contains m) ls.

Lemma fold_scan ls d :
  fold_left scan ls d =
  {| cd_unprinted := cd_unprinted d;
     cd_time_limit := has_line time_limit_marker ls || cd_time_limit d;
     cd_aborted := has_line aborted_marker ls || cd_aborted d |}.
Proof.
  revert d; induction ls as [|l ls IH]; intros d; cbn [fold_left].
  - destruct d; reflexivity.
  - rewrite IH. unfold scan, has_line. cbn [cd_unprinted cd_time_limit cd_aborted existsb].
    f_equal.
    + destruct (contains time_limit_marker l), (existsb (contains time_limit_marker) ls), (cd_time_limit d); reflexivity.
    + destruct (contains aborted_marker l), (existsb (contains aborted_marker) ls), (cd_aborted d); reflexivity.
Qed.

Lemma has_line_app m a b : has_line m (a ++ b) = has_line m a || has_line m b.
Proof. apply existsb_app. Qed.

Lemma has_line_spec m ls : has_line m ls = true <-> exists l, In l ls /\ occurs m l.
Proof.
  unfold has_line. rewrite existsb_exists. split; intros (l & I & H); exists l; split; auto; now apply contains_spec.
Qed.

Lemma read_event_spec d rs a b :
  readable rs -> splits (cd_unprinted d ++ delivered rs) a b ->
  read_event d rs =
    if valid_utf8 a
    then Ret ({| cd_unprinted := b;
                 cd_time_limit := has_line time_limit_marker (lines a) || cd_time_limit d;
                 cd_aborted := has_line aborted_marker (lines a) || cd_aborted d |}, lines a)
    else Err (lit "utf8").
Proof.
  intros R S. unfold read_event. rewrite (read_lines_spec _ _ _ _ R S).
  destruct (valid_utf8 a); [|reflexivity]. cbn [bind fst snd]. cbv zeta. rewrite fold_scan. reflexivity.
Qed.

Lemma read_events_spec evs d a b :
  Forall readable evs -> splits (cd_unprinted d ++ List.concat (map delivered evs)) a b ->
  ~ In LF (cd_unprinted d) ->
  read_events d evs =
    if valid_utf8 a
    then Ret ({| cd_unprinted := b;
                 cd_time_limit := has_line time_limit_marker (lines a) || cd_time_limit d;
                 cd_aborted := has_line aborted_marker (lines a) || cd_aborted d |}, lines a)
    else Err (lit "utf8").
Proof.
  revert d a b; induction evs as [|rs evs IH]; intros d a b F S N.
  - simpl in S. rewrite app_nil_r in S.
    assert (S' : splits (cd_unprinted d) [] (cd_unprinted d)) by (repeat split; auto).
    destruct (splits_unique _ _ _ _ _ S S') as [-> ->]. simpl. destruct d; reflexivity.
  - inversion F as [|? ? R F']; subst. simpl in S.
    destruct (splits_exists (cd_unprinted d ++ delivered rs)) as (a1 & b1 & S1).
    destruct (splits_exists (b1 ++ List.concat (map delivered evs))) as (a2 & b2 & S2).
    pose proof (splits_app _ _ _ _ _ _ S1 S2) as S3. rewrite <- app_assoc in S3.
    destruct (splits_unique _ _ _ _ _ S S3) as [-> ->].
    cbn [read_events]. rewrite (read_event_spec _ _ _ _ R S1).
    assert (C1 : a1 = [] \/ exists t, a1 = t ++ [LF]) by apply S1.
    rewrite (valid_splits _ _ _ _ _ C1 S2).
    destruct (valid_utf8 a1); [|reflexivity]. cbn [bind fst snd andb].
    rewrite (IH {| cd_unprinted := b1; cd_time_limit := _; cd_aborted := _ |} a2 b2 F' S2); [|apply S1].
    destruct (valid_utf8 a2); [|reflexivity]. cbn [bind fst snd cd_time_limit cd_aborted].
    rewrite (lines_complete_app _ _ C1), !has_line_app. f_equal. f_equal. f_equal.
    + destruct (has_line time_limit_marker (lines a1)), (has_line time_limit_marker (lines a2)), (cd_time_limit d); reflexivity.
    + destruct (has_line aborted_marker (lines a1)), (has_line aborted_marker (lines a2)), (cd_aborted d); reflexivity.
Qed.

Lemma read_events_err evs : ~ Forall readable evs -> forall d r, read_events d evs <> Ret r.
Proof.
  induction evs as [|rs evs IH]; intros H d r; [exfalso; apply H; constructor|].
  cbn [read_events]. destruct (read_event d rs) as [[d' ls]|e|] eqn:E; cbn [bind fst snd]; try discriminate.
  assert (R : readable rs).
  { assert (D : readable rs \/ ~ readable rs).
    { clear. induction rs as [|[[|c b]| | |] rs IH]; simpl; auto. }
    destruct D as [D|D]; [exact D|]. unfold read_event, read_lines in E. rewrite (read_loop_err _ _ D) in E. discriminate. }
  assert (H' : ~ Forall readable evs) by (intros K; apply H; constructor; assumption).
  destruct (read_events d' evs) as [r'|e|] eqn:E'; cbn [bind]; try discriminate.
  exfalso. exact (IH H' _ _ E').
Qed.

(** ** In terms of lines *)

Lemma render_splits ls last :
  Forall line_ok ls -> ~ In LF last -> splits (render ls last) (render ls []) last.
Proof.
  intros F N. unfold render. rewrite app_nil_r. split; [reflexivity|]. split; [exact N|].
  destruct ls as [|l ls] using rev_ind; [left; reflexivity|]. right.
  rewrite map_app, concat_app. cbn [map List.concat]. rewrite app_nil_r.
  destruct l as [x [|]]; cbn [fst snd].
  - exists (List.concat (map (fun l : str * bool => fst l ++ (if snd l then [CR; LF] else [LF])) ls) ++ x ++ [CR]).
    rewrite <- !app_assoc. reflexivity.
  - eexists. rewrite app_assoc. reflexivity.
Qed.

Lemma valid_cr_lf x : valid_utf8 (x ++ [CR]) = valid_utf8 x.
Proof.
  destruct (valid_utf8 x) eqn:V; [rewrite valid_app by exact V; reflexivity|].
  destruct (valid_utf8 (x ++ [CR])) eqn:W; [|reflexivity].
  assert (B : is_char_boundary (x ++ [CR]) (List.length x) = true).
  { unfold is_char_boundary. destruct (List.length x) eqn:L; [reflexivity|].
    rewrite nth_error_app2 by lia. rewrite L, Nat.sub_diag. reflexivity. }
  destruct (valid_firstn _ _ W B) as [V1 _].
  rewrite firstn_app, firstn_all, Nat.sub_diag, firstn_O, app_nil_r in V1. congruence.
Qed.

Lemma valid_lf1 x : valid_utf8 (x ++ [LF]) = valid_utf8 x.
Proof.
  destruct (valid_utf8 x) eqn:V; [rewrite valid_app by exact V; reflexivity|].
  destruct (valid_utf8 (x ++ [LF])) eqn:W; [|reflexivity].
  assert (B : is_char_boundary (x ++ [LF]) (List.length x) = true).
  { unfold is_char_boundary. destruct (List.length x) eqn:L; [reflexivity|].
    rewrite nth_error_app2 by lia. rewrite L, Nat.sub_diag. reflexivity. }
  destruct (valid_firstn _ _ W B) as [V1 _].
  rewrite firstn_app, firstn_all, Nat.sub_diag, firstn_O, app_nil_r in V1. congruence.
Qed.

Lemma render_valid ls :
  valid_utf8 (render ls []) = true <-> Forall (fun l => valid_utf8 l = true) (map fst ls).
Proof.
  induction ls as [|[x c] ls IH]; [unfold render; simpl; split; auto|].
  assert (E : render ((x, c) :: ls) [] = ((x ++ if c then [CR] else []) ++ [LF]) ++ render ls []).
  { unfold render. cbn [map List.concat fst snd]. destruct c; rewrite <- ?app_assoc; reflexivity. }
  rewrite E, valid_lf, valid_lf1, andb_true_iff, IH. cbn [map fst].
  assert (V : valid_utf8 (x ++ if c then [CR] else []) = valid_utf8 x).
  { destruct c; [apply valid_cr_lf|now rewrite app_nil_r]. }
  rewrite V. split; [intros [H1 H2]; constructor; auto|]. intros H. inversion H; auto.
Qed.

Lemma lines_render_complete ls : Forall line_ok ls -> lines (render ls []) = map fst ls.
Proof. intros F. rewrite lines_render by (auto; intros []). unfold all_lines. apply app_nil_r. Qed.

Lemma read_all_lines evs ls last :
  Forall readable evs -> Forall line_ok ls -> ~ In LF last ->
  List.concat (map delivered evs) = render ls last ->
  Forall (fun l => valid_utf8 l = true) (map fst ls) ->
  exists d, read_events cd_init evs = Ret (d, map fst ls) /\ cd_unprinted d = last /\
    (cd_time_limit d = true <-> exists l, In l (map fst ls) /\ occurs time_limit_marker l) /\
    (cd_aborted d = true <-> exists l, In l (map fst ls) /\ occurs aborted_marker l).
Proof.
  intros R F N E V.
  rewrite (read_events_spec evs cd_init (render ls []) last); auto.
  - apply render_valid in V. rewrite V, lines_render_complete by exact F.
    eexists. split; [reflexivity|]. cbn [cd_unprinted cd_time_limit cd_aborted cd_init].
    rewrite !orb_false_r, <- !has_line_spec. repeat split; auto.
  - cbn [cd_unprinted cd_init app]. rewrite E. apply render_splits; assumption.
Qed.

Lemma read_all_lines_invalid evs ls last :
  Forall readable evs -> Forall line_ok ls -> ~ In LF last ->
  List.concat (map delivered evs) = render ls last ->
  ~ Forall (fun l => valid_utf8 l = true) (map fst ls) ->
  exists e, read_events cd_init evs = Err e.
Proof.
  intros R F N E V.
  rewrite (read_events_spec evs cd_init (render ls []) last); auto.
  - destruct (valid_utf8 (render ls [])) eqn:W; [|eauto]. exfalso. apply V. now apply render_valid.
  - cbn [cd_unprinted cd_init app]. rewrite E. apply render_splits; assumption.
Qed.
