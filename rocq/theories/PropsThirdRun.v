(** Theorems about what the test of third parties' code finds (C139). *)
From Coq Require Import Ascii String List Bool Arith NArith Lia.
From Verif Require Import Base Utf8 Lossy Sha1 ThirdParty ThirdRun PropsShown.
Import ListNotations.

Lemma split_ne c s : split_on c s <> [].
Proof. destruct s as [|a s]; cbn; [discriminate|]. destruct (ascii_dec a c); [discriminate|]. destruct (split_on c s); discriminate. Qed.
Lemma split_app c a b : split_on c (a ++ c :: b) = split_on c a ++ split_on c b.
Proof.
  induction a as [|x a IH]; cbn.
  - destruct (ascii_dec c c); [reflexivity|contradiction].
  - destruct (ascii_dec x c); [now rewrite IH|]. rewrite IH. destruct (split_on c a) as [|w l] eqn:E; [now apply split_ne in E|]. reflexivity.
Qed.
Lemma split_head c p s : ~ In c p -> split_on c (p ++ s) = match split_on c s with w :: l => (p ++ w) :: l | [] => [] end.
Proof.
  induction p as [|x p IH]; intros N; cbn [app].
  - destruct (split_on c s) eqn:E; [now apply split_ne in E|reflexivity].
  - cbn. destruct (ascii_dec x c) as [->|_]; [destruct N; now left|]. rewrite IH by (intros I; apply N; now right).
    destruct (split_on c s) eqn:E; [now apply split_ne in E|reflexivity].
Qed.

Lemma hex_no_lf n : hex n -> ~ In LF n.
Proof. intros H I. unfold hex in H. rewrite Forall_forall in H. specialize (H LF I). vm_compute in H. discriminate H. Qed.

(** The lines of several entries. *)
Lemma lines_shown es : (forall e, In e es -> hex40 (fst e)) ->
  regex_lines (List.concat (map shown es)) =
  flat_map (fun e => match split_on LF (snd e) with w :: l => (fst e ++ lit ": " ++ w) :: l | [] => [] end) es ++ [[]].
Proof.
  unfold regex_lines. induction es as [|e es IH]; intros H; [reflexivity|]. cbn [map List.concat flat_map]. unfold shown at 1.
  replace ((fst e ++ lit ": " ++ snd e ++ [LF]) ++ List.concat (map shown es)) with ((fst e ++ lit ": " ++ snd e) ++ LF :: List.concat (map shown es)) by (rewrite <- !app_assoc; reflexivity).
  rewrite split_app, IH by (intros x I; apply H; now right). rewrite <- app_assoc. f_equal.
  rewrite app_assoc, split_head.
  - destruct (split_on LF (snd e)); [reflexivity|]. now rewrite <- app_assoc.
  - destruct (H e (or_introl eq_refl)) as (_ & X). intros I. apply in_app_or in I as [I|I]; [now apply hex_no_lf in I|]. vm_compute in I. intuition discriminate.
Qed.

Lemma hex40_line n s : hex40 n -> firstn 40 (n ++ s) = n /\ skipn 40 (n ++ s) = s.
Proof. intros (L & _). rewrite firstn_app, skipn_app, L. rewrite <- L, firstn_all, skipn_all, Nat.sub_diag. cbn. now rewrite app_nil_r. Qed.

Lemma head_occurs c p a b : ~ In c a -> occurs (c :: p) (a ++ b) -> occurs (c :: p) b.
Proof.
  intros N (u & v & E). revert u E. induction a as [|x a IH]; intros u E; [now exists u, v|]. destruct u as [|y u].
  - cbn in E. injection E as -> _. destruct N. now left.
  - cbn in E. injection E as _ E. apply (IH (fun I => N (or_intror I)) u). exact E.
Qed.

Lemma occurs_lines p s t : ~ In LF p -> p <> [] -> occurs p (s ++ LF :: t) -> occurs p s \/ occurs p t.
Proof.
  intros N E0 (u & v & E). destruct (le_lt_dec (List.length (u ++ p)) (List.length s)) as [L|L].
  - left. exists u, (skipn (List.length (u ++ p)) s). rewrite app_assoc. rewrite <- (firstn_skipn (List.length (u ++ p)) s) at 1. f_equal.
    assert (X : firstn (List.length (u ++ p)) (s ++ LF :: t) = firstn (List.length (u ++ p)) ((u ++ p) ++ v)) by (rewrite E, <- app_assoc; reflexivity).
    rewrite (firstn_app _ s), (firstn_app _ (u ++ p)), firstn_all, Nat.sub_diag in X. replace (List.length (u ++ p) - List.length s) with 0 in X by lia. cbn [firstn] in X. now rewrite !app_nil_r in X.
  - destruct (le_lt_dec (S (List.length s)) (List.length u)) as [M|M].
    + right. exists (skipn (S (List.length s)) u), v.
      assert (X : skipn (S (List.length s)) (s ++ LF :: t) = skipn (S (List.length s)) (u ++ p ++ v)) by now rewrite E.
      rewrite !skipn_app in X. rewrite (skipn_all2 s) in X by lia. replace (S (List.length s) - List.length s) with 1 in X by lia. replace (S (List.length s) - List.length u) with 0 in X by lia. cbn in X. exact X.
    + exfalso. apply N. rewrite app_length in L. assert (X : nth_error (s ++ LF :: t) (List.length s) = nth_error (u ++ p ++ v) (List.length s)) by now rewrite E.
      rewrite nth_error_app2, Nat.sub_diag in X by lia. rewrite nth_error_app2, nth_error_app1 in X by lia. cbn in X. symmetry in X. eapply nth_error_In, X.
Qed.

Lemma occurs_mid p a s b : occurs p s -> occurs p (a ++ s ++ b).
Proof. intros (u & v & ->). exists (a ++ u), (v ++ b). now rewrite <- !app_assoc. Qed.

(** The checks of displaying a corpus succeed exactly if it has an entry, and the text about unknown
    values is nowhere. *)
Theorem C139_display :
  forall es : list (str * str),
    (forall e, In e es -> hex40 (fst e)) ->
    (display_ok (List.concat (map shown es)) = true <-> es <> [] /\ forall e, In e es -> ~ occurs (lit "unknown of type") (snd e)).
Proof.
  intros es H. unfold display_ok. rewrite andb_true_iff, negb_true_iff, lines_shown by exact H.
  assert (A : existsb entry_line (flat_map (fun e => match split_on LF (snd e) with w :: l => (fst e ++ lit ": " ++ w) :: l | [] => [] end) es ++ [[]]) = true <-> es <> []).
  { destruct es as [|e es]; [split; [discriminate|now intros []]|]. split; [discriminate|intros _]. cbn [flat_map]. destruct (split_on LF (snd e)) as [|w l] eqn:E; [now apply split_ne in E|].
    cbn [app existsb]. apply orb_true_iff. left. pose proof (H e (or_introl eq_refl)) as X. unfold entry_line. destruct (hex40_line (fst e) (lit ": " ++ w) X) as (-> & ->).
    destruct X as (L & X). rewrite L. apply andb_true_iff. split; [|reflexivity]. cbn [Nat.eqb andb]. unfold hex in X. rewrite Forall_forall in X. apply forallb_forall. exact X. }
  rewrite A. apply and_iff_compat_l. clear A.
  assert (B : contains (lit "unknown of type") (List.concat (map shown es)) = true <-> exists e, In e es /\ occurs (lit "unknown of type") (snd e)).
  { rewrite contains_spec. induction es as [|e es IH].
    - cbn. split; [intros (u & v & E); destruct u; discriminate E|intros (e & [] & _)].
    - cbn [map List.concat]. unfold shown at 1. replace ((fst e ++ lit ": " ++ snd e ++ [LF]) ++ List.concat (map shown es)) with ((fst e ++ lit ": " ++ snd e) ++ LF :: List.concat (map shown es)) by (rewrite <- !app_assoc; reflexivity).
      specialize (IH (fun x I => H x (or_intror I))). split.
      + intros O. apply occurs_lines in O as [O|O]; [exists e; split; [now left|]|apply IH in O as (x & I & O); exists x; split; [now right|exact O]|vm_compute; intuition discriminate|discriminate].
        rewrite app_assoc in O. change (lit "unknown of type") with ("u"%char :: lit "nknown of type") in *. apply head_occurs in O; [exact O|].
        intros I. apply in_app_or in I as [I|I]; [|vm_compute in I; intuition discriminate]. destruct (H e (or_introl eq_refl)) as (_ & X). unfold hex in X. rewrite Forall_forall in X. specialize (X _ I). vm_compute in X. discriminate X.
      + intros (x & [<-|I] & O).
        * rewrite (app_assoc (fst e)), <- app_assoc. apply occurs_mid. exact O.
        * destruct (proj2 IH (ex_intro _ x (conj I O))) as (u & v & ->). exists ((fst e ++ lit ": " ++ snd e) ++ LF :: u), v. rewrite <- !app_assoc. reflexivity. }
  destruct (contains _ _); split.
  - discriminate.
  - intros K. destruct (proj1 B eq_refl) as (e & I & O). now destruct (K e I).
  - intros _ e I O. destruct B as (_ & B). discriminate (B (ex_intro _ e (conj I O))).
  - reflexivity.
Qed.
Print Assumptions C139_display.

Lemma ret_text_spec s : ret_text s = true <-> result_text s.
Proof.
  unfold ret_text, result_text. destruct (strip_prefix (lit "Ret(") s) as [r|] eqn:E.
  - apply strip_prefix_spec in E. subst s. rewrite orb_true_iff. split.
    + intros [H|H].
      * destruct (strip_prefix (lit "Ok(") r) as [t|] eqn:P; [|discriminate]. apply strip_prefix_spec in P. destruct (strip_suffix (lit "))") t) as [q|] eqn:Q; [|discriminate].
        apply strip_suffix_spec in Q. subst. exists (lit "Ok("), q. auto.
      * destruct (strip_prefix (lit "Err(") r) as [t|] eqn:P; [|discriminate]. apply strip_prefix_spec in P. destruct (strip_suffix (lit "))") t) as [q|] eqn:Q; [|discriminate].
        apply strip_suffix_spec in Q. subst. exists (lit "Err("), q. auto.
    + intros (w & t & [-> | ->] & X); apply app_inv_head in X; subst r.
      * left. destruct (strip_prefix (lit "Ok(") (lit "Ok(" ++ t ++ lit "))")) as [y|] eqn:P; [apply strip_prefix_spec, app_inv_head in P; subst y; now rewrite strip_suffix_app|].
        assert (Y : strip_prefix (lit "Ok(") (lit "Ok(" ++ t ++ lit "))") = Some (t ++ lit "))")) by now apply strip_prefix_spec. rewrite Y in P. discriminate P.
      * right. destruct (strip_prefix (lit "Err(") (lit "Err(" ++ t ++ lit "))")) as [y|] eqn:P; [apply strip_prefix_spec, app_inv_head in P; subst y; now rewrite strip_suffix_app|].
        assert (Y : strip_prefix (lit "Err(") (lit "Err(" ++ t ++ lit "))") = Some (t ++ lit "))")) by now apply strip_prefix_spec. rewrite Y in P. discriminate P.
  - split; [discriminate|]. intros (w & t & _ & ->). assert (Y : strip_prefix (lit "Ret(") (lit "Ret(" ++ w ++ t ++ lit "))") = Some (w ++ t ++ lit "))")) by now apply strip_prefix_spec. rewrite Y in E. discriminate E.
Qed.

Lemma ret_line_spec l : ret_line l = true <-> exists n s, hex40 n /\ result_text s /\ l = n ++ lit ": " ++ s.
Proof.
  unfold ret_line. split.
  - rewrite !andb_true_iff, Nat.eqb_eq, forallb_forall. intros ((L & H) & X). destruct (strip_prefix (lit ": ") (skipn 40 l)) as [r|] eqn:P; [|discriminate].
    apply strip_prefix_spec in P. exists (firstn 40 l), r. split; [split; [exact L|]|split; [now apply ret_text_spec|]].
    + unfold hex. apply Forall_forall. exact H.
    + rewrite <- P. symmetry. apply firstn_skipn.
  - intros (n & s & H & R & ->). destruct (hex40_line n (lit ": " ++ s) H) as (-> & ->). destruct H as (L & H). rewrite L. cbn [Nat.eqb andb].
    apply andb_true_iff. split; [unfold hex in H; rewrite Forall_forall in H; apply forallb_forall; exact H|].
    assert (Y : strip_prefix (lit ": ") (lit ": " ++ s) = Some s) by now apply strip_prefix_spec. rewrite Y. now apply ret_text_spec.
Qed.

Lemma split_first s l r : split_on LF s = l :: r -> ~ In LF l /\ (s = l /\ r = [] \/ exists t, s = l ++ LF :: t /\ r = split_on LF t).
Proof.
  revert l r. induction s as [|a s IH]; intros l r; cbn [split_on].
  - intros E. injection E as <- <-. split; [intros []|now left].
  - destruct (ascii_dec a LF) as [->|N].
    + intros E. injection E as <- <-. split; [intros []|]. right. now exists s.
    + destruct (split_on LF s) as [|w m] eqn:X; [now apply split_ne in X|]. intros E. injection E as <- <-. destruct (IH w m eq_refl) as (A & B). split.
      * intros [I|I]; [now apply N|now apply A].
      * destruct B as [(-> & ->)|(t & -> & ->)]; [now left|]. right. now exists t.
Qed.

(** The check of replaying succeeds exactly if the first line of what is shown for an entry is a
    result, or a later line of it is of the form of an entry with a result. *)
Theorem C139_replay :
  forall es : list (str * str),
    (forall e, In e es -> hex40 (fst e)) ->
    (replay_ok (List.concat (map shown es)) = true <->
     exists e, In e es /\
       exists l, ~ In LF l /\
         (result_text l /\ (snd e = l \/ exists t, snd e = l ++ LF :: t) \/
          (exists n s, hex40 n /\ result_text s /\ l = n ++ lit ": " ++ s) /\
          exists a, snd e = a ++ LF :: l \/ exists t, snd e = a ++ LF :: l ++ LF :: t)).
Proof.
  assert (T : forall t l, In l (split_on LF t) <-> ~ In LF l /\ (t = l \/ (exists u, t = l ++ LF :: u) \/ exists a, t = a ++ LF :: l \/ exists u, t = a ++ LF :: l ++ LF :: u)).
  { intros t l. remember (List.length t) as k eqn:K. revert t l K. induction k as [k IH] using lt_wf_ind. intros t l ->.
    destruct (split_on LF t) as [|w r] eqn:E; [now apply split_ne in E|]. apply split_first in E as (N & E). split.
    - intros [<-|I].
      + split; [exact N|]. destruct E as [(-> & _)|(u & -> & _)]; [now left|]. right. left. now exists u.
      + destruct E as [(_ & ->)|(u & -> & ->)]; [destruct I|]. apply (IH (List.length u)) in I; [|rewrite app_length; cbn; lia|reflexivity].
        destruct I as (M & [->|[(v & ->)|(a & [->|(v & ->)])]]); (split; [exact M|]); right; right.
        * exists w. now left.
        * exists w. right. now exists v.
        * exists (w ++ LF :: a). left. rewrite <- app_assoc. reflexivity.
        * exists (w ++ LF :: a). right. exists v. rewrite <- app_assoc. reflexivity.
    - intros (M & D).
      assert (P : forall x v : str, ~ In LF x -> split_on LF (x ++ LF :: v) = x :: split_on LF v).
      { intros x v X. rewrite split_head by exact X. cbn [split_on]. destruct (ascii_dec LF LF); [now rewrite app_nil_r|contradiction]. }
      assert (Q : forall x : str, ~ In LF x -> split_on LF x = [x]) by (intros x X; rewrite <- (app_nil_r x) at 1; rewrite split_head by exact X; cbn; now rewrite app_nil_r).
      assert (Z : In l (split_on LF t)).
      { destruct D as [->|[(u & ->)|(a & [->|(u & ->)])]]; [rewrite Q by exact M; now left|rewrite P by exact M; now left| |].
        - rewrite split_app, (Q l) by exact M. apply in_or_app. right. now left.
        - rewrite split_app, (P l) by exact M. apply in_or_app. right. now left. }
      destruct E as [(-> & ->)|(u & -> & ->)]; [rewrite Q in Z by exact N; exact Z|rewrite P in Z by exact N; exact Z]. }
  intros es H. unfold replay_ok. rewrite lines_shown by exact H. rewrite existsb_exists. split.
  - intros (x & I & R). apply in_app_or in I as [I|[<-|[]]]; [|discriminate R]. apply in_flat_map in I as (e & I & J). exists e. split; [exact I|].
    destruct (split_on LF (snd e)) as [|w r] eqn:E; [destruct J|]. apply split_first in E as (N & E). destruct J as [<-|J].
    + exists w. split; [exact N|]. left. split.
      * apply ret_line_spec in R as (n & s & A & R & X). destruct (hex40_line (fst e) (lit ": " ++ w) (H e I)) as (_ & Y). destruct (hex40_line n (lit ": " ++ s) A) as (_ & Z).
        rewrite X, Z in Y. apply app_inv_head in Y. now subst s.
      * destruct E as [(E & _)|(u & E & _)]; [now left|right; now exists u].
    + destruct E as [(_ & ->)|(u & E & ->)]; [destruct J|]. apply T in J as (M & D). exists x. split; [exact M|]. right. split; [now apply ret_line_spec|].
      rewrite E. destruct D as [->|[(v & ->)|(a & [->|(v & ->)])]].
      * exists w. now left.
      * exists w. right. now exists v.
      * exists (w ++ LF :: a). left. rewrite <- app_assoc. reflexivity.
      * exists (w ++ LF :: a). right. exists v. rewrite <- app_assoc. reflexivity.
  - intros (e & I & l & M & [(R & D)|(R & D)]).
    + exists (fst e ++ lit ": " ++ l). split; [|apply ret_line_spec; exists (fst e), l; auto using H].
      apply in_or_app. left. apply in_flat_map. exists e. split; [exact I|]. destruct D as [->|(t & ->)].
      * assert (Z : split_on LF l = [l]) by (rewrite <- (app_nil_r l) at 1; rewrite split_head by exact M; cbn; now rewrite app_nil_r). rewrite Z. now left.
      * rewrite split_head by exact M. cbn [split_on]. destruct (ascii_dec LF LF); [|contradiction]. rewrite app_nil_r. now left.
    + exists l. split; [|now apply ret_line_spec]. apply in_or_app. left. apply in_flat_map. exists e. split; [exact I|].
      assert (Z : exists u, exists a, snd e = a ++ LF :: u /\ In l (split_on LF u)).
      { destruct D as (a & [->|(t & ->)]); [exists l, a|exists (l ++ LF :: t), a]; (split; [reflexivity|apply T; split; [exact M|]]); [now left|right; left; now exists t]. }
      destruct Z as (u & a & -> & Z). rewrite split_app. destruct (split_on LF a) as [|w r] eqn:E; [now apply split_ne in E|]. cbn. right. apply in_or_app. now right.
Qed.
Print Assumptions C139_replay.

(** Whatever else is printed, displaying passes exactly if some line begins with forty hexadecimal
    digits and a colon, and replaying exactly if some line has a result after these and a space. *)
Theorem C139_any :
  forall out : str,
    let has_line P := exists a l b, out = a ++ l ++ b /\ (a = [] \/ exists c, a = c ++ [LF]) /\ (b = [] \/ exists c, b = LF :: c) /\ ~ In LF l /\ P l in
    (display_ok out = true <-> has_line (fun l => exists n t, hex40 n /\ l = n ++ lit ":" ++ t) /\ ~ occurs (lit "unknown of type") out) /\
    (replay_ok out = true <-> has_line (fun l => exists n t, hex40 n /\ result_text t /\ l = n ++ lit ": " ++ t)).
Proof.
  assert (S : forall l s, In l (split_on LF s) <-> exists a b, s = a ++ l ++ b /\ (a = [] \/ exists c, a = c ++ [LF]) /\ (b = [] \/ exists c, b = LF :: c) /\ ~ In LF l).
  { assert (Q : forall x : str, ~ In LF x -> split_on LF x = [x]) by (intros x X; rewrite <- (app_nil_r x) at 1; rewrite split_head by exact X; cbn; now rewrite app_nil_r).
    assert (P : forall x v : str, ~ In LF x -> split_on LF (x ++ LF :: v) = x :: split_on LF v) by (intros x v X; rewrite split_app, Q by exact X; reflexivity).
    intros l s. split.
    - remember (List.length s) as k eqn:K. revert s K. induction k as [k IH] using lt_wf_ind. intros s -> I.
      destruct (split_on LF s) as [|w r] eqn:E; [destruct I|]. apply split_first in E as (N & E). destruct I as [<-|I].
      + destruct E as [(-> & _)|(u & -> & _)]; [exists [], []|exists [], (LF :: u)]; rewrite ?app_nil_r; repeat split; auto. right. now exists u.
      + destruct E as [(_ & ->)|(u & -> & ->)]; [destruct I|]. apply (IH (List.length u)) in I; [|rewrite app_length; cbn; lia|reflexivity].
        destruct I as (a & b & -> & A & B & M). exists (w ++ LF :: a), b. split; [now rewrite <- app_assoc|]. split; [|split; assumption]. right.
        destruct A as [->|(c & ->)]; [now exists w|]. exists (w ++ LF :: c). now rewrite <- app_assoc.
    - intros (a & b & -> & A & B & M). assert (H : In l (split_on LF (l ++ b))) by (destruct B as [->|(c & ->)]; [rewrite app_nil_r, Q by exact M|rewrite P by exact M]; now left).
      destruct A as [->|(c & ->)]; [exact H|]. rewrite <- app_assoc. cbn [app]. rewrite split_app. apply in_or_app. now right. }
  assert (T : forall (f : str -> bool) (P : str -> Prop) out, (forall l, f l = true <-> P l) -> existsb f (split_on LF out) = true <->
     exists a l b, out = a ++ l ++ b /\ (a = [] \/ exists c, a = c ++ [LF]) /\ (b = [] \/ exists c, b = LF :: c) /\ ~ In LF l /\ P l).
  { intros f P out F. rewrite existsb_exists. split.
    - intros (l & I & K). apply S in I as (a & b & E & A & B & N). exists a, l, b. apply F in K. auto.
    - intros (a & l & b & E & A & B & N & K). exists l. apply F in K. split; [|exact K]. apply S. now exists a, b. }
  intros out has_line. split.
  - unfold display_ok, has_line. rewrite andb_true_iff, negb_true_iff. rewrite <- (T entry_line).
    + unfold regex_lines. apply and_iff_compat_l. pose proof (contains_spec (lit "unknown of type") out) as C. destruct (contains _ out); split; intros K; try discriminate K; try reflexivity.
      * destruct K. now apply C.
      * intros O. apply C in O. discriminate O.
    + intros l. unfold entry_line. rewrite !andb_true_iff, Nat.eqb_eq, forallb_forall. split.
      * intros ((L & H) & X). apply starts_with_spec in X as (t & X). exists (firstn 40 l), t. split; [split; [exact L|unfold hex; apply Forall_forall; exact H]|]. rewrite <- X. symmetry. apply firstn_skipn.
      * intros (n & t & H & ->). destruct (hex40_line n (lit ":" ++ t) H) as (-> & ->). destruct H as (L & H). split; [split; [exact L|unfold hex in H; now rewrite Forall_forall in H]|]. apply starts_with_spec. now exists t.
  - unfold replay_ok, regex_lines, has_line. apply T. intros l. rewrite ret_line_spec. reflexivity.
Qed.
Print Assumptions C139_any.

(** What is shown for an entry is of the form supposed here, whatever its harness wrote; valid UTF-8 is
    shown as it was written, without its last line feed. *)
Theorem C139_shown :
  forall (n text : bytes) (status : str),
    (exists b, line n text status = shown (lossy n, b)) /\
    (forall t, valid_utf8 (t ++ [LF]) = true -> text = t ++ [LF] -> line n text status = shown (lossy n, t)) /\
    (text = [] -> line n text status = shown (lossy n, status)).
Proof.
  intros n text status. split; [|split].
  - unfold line, shown. destruct text as [|a s]; [exists status; reflexivity|]. destruct (ascii_dec (List.last (a :: s) LF) LF) as [E|E].
    + assert (L : ends_lf (lossy (a :: s))) by (apply lossy_ends_lf; exists (removelast (a :: s)); rewrite <- E at 1; apply app_removelast_last; discriminate).
      destruct L as (b & ->). exists b. cbn [fst snd]. now rewrite app_nil_r.
    + exists (lossy (a :: s)). reflexivity.
  - intros t V ->. unfold line, shown. destruct (t ++ [LF]) as [|a s] eqn:E; [destruct t; discriminate E|]. rewrite <- E in *. rewrite (lossy_valid (t ++ [LF])) by exact V.
    rewrite last_last. destruct (ascii_dec LF LF); [|contradiction]. cbn [fst snd]. now rewrite app_nil_r.
  - intros ->. reflexivity.
Qed.
Print Assumptions C139_shown.

Lemma occurs_shown e : ThirdRun.hex40 (fst e) -> occurs (lit "unknown of type") (shown e) <-> occurs (lit "unknown of type") (snd e).
Proof.
  intros (_ & X). unfold shown. split.
  - intros O. assert (E : fst e ++ lit ": " ++ snd e ++ [LF] = (fst e ++ lit ": " ++ snd e) ++ LF :: []) by now rewrite <- !app_assoc. rewrite E in O.
    apply occurs_lines in O as [O|O]; [|destruct O as (u & v & O); destruct u; discriminate O|vm_compute; intuition discriminate|discriminate].
    rewrite app_assoc in O. change (lit "unknown of type") with ("u"%char :: lit "nknown of type") in *. apply head_occurs in O; [exact O|].
    intros I. apply in_app_or in I as [I|I]; [|vm_compute in I; intuition discriminate]. unfold ThirdParty.hex in X. rewrite Forall_forall in X. specialize (X _ I). vm_compute in X. discriminate X.
  - intros O. rewrite (app_assoc (fst e)). now apply occurs_mid.
Qed.

(** The names of recorded calls are of the form supposed here; so displaying recorded calls passes
    exactly if there are any, and none is shown with the text about unknown values. *)
Theorem C139_recorded :
  forall l : list (bytes * bytes * str),
    let of_entry x := line (corpus_name (fst (fst x))) (snd (fst x)) (snd x) in
    display_ok (List.concat (map of_entry l)) = true <-> l <> [] /\ forall x, In x l -> ~ occurs (lit "unknown of type") (of_entry x).
Proof.
  intros l of_entry.
  assert (N : forall d, hex40 (corpus_name d) /\ lossy (corpus_name d) = corpus_name d).
  { intros d. pose proof (corpus_name_chars d) as F. rewrite Forall_forall in F. split; [split; [apply corpus_name_length|]|apply lossy_valid, ascii_valid].
    - unfold ThirdParty.hex. apply Forall_forall. intros c I. specialize (F c I). cbn in F. repeat (destruct F as [<-|F]; [reflexivity|]). destruct F.
    - unfold is_ascii. apply Forall_forall. intros c I. specialize (F c I). cbn in F. repeat (destruct F as [<-|F]; [reflexivity|]). destruct F. }
  assert (E : exists es, map of_entry l = map shown es /\ (forall e, In e es -> hex40 (fst e)) /\ (es = [] <-> l = [])).
  { induction l as [|((d, text), st) l (es & E & H & Z)]; [exists []; split; [reflexivity|split; [intros ? []|tauto]]|]. destruct (C139_shown (corpus_name d) text st) as ((b & B) & _). exists ((corpus_name d, b) :: es). split; [|split].
    - cbn [map]. rewrite E. f_equal. unfold of_entry. cbn [fst snd]. rewrite B. destruct (N d) as (_ & ->). reflexivity.
    - intros e [<-|I]; [apply N|now apply H].
    - split; discriminate. }
  destruct E as (es & E & H & Z). rewrite E, C139_display by exact H. split.
  - intros (A & B). split; [intros K; now apply A, Z|]. intros x I O. assert (J : In (of_entry x) (map of_entry l)) by now apply in_map. rewrite E in J. apply in_map_iff in J as (e & K & J).
    rewrite <- K in O. apply occurs_shown in O; [now apply (B e)|now apply H].
  - intros (A & B). split; [intros K; now apply A, Z|]. intros e I O. assert (J : In (shown e) (map shown es)) by now apply in_map. rewrite <- E in J. apply in_map_iff in J as (x & K & J).
    apply (B x J). rewrite K. apply occurs_shown; [now apply H|exact O].
Qed.
Print Assumptions C139_recorded.

(** The checks of displaying succeed although of no entry any argument is shown: what is shown of an
    entry that cannot be read is an empty line. *)
Theorem C139_unread_refuted :
  exists n : str, hex40 n /\ display_ok (shown (n, [])) = true /\ replay_ok (shown (n, [])) = false.
Proof. exists (repeat "a"%char 40). split; [split; [reflexivity|unfold hex; apply Forall_forall; intros c I; apply repeat_spec in I; subst c; reflexivity]|]. split; vm_compute; reflexivity. Qed.
Print Assumptions C139_unread_refuted.

(** And the check of replaying fails for a result that is shown, if the target wrote a line before it. *)
Theorem C139_log_refuted :
  exists n : str, hex40 n /\ replay_ok (shown (n, lit "Ret(Ok(()))")) = true /\ replay_ok (shown (n, lit "warning" ++ [LF] ++ lit "Ret(Ok(()))")) = false.
Proof. exists (repeat "a"%char 40). split; [split; [reflexivity|unfold hex; apply Forall_forall; intros c I; apply repeat_spec in I; subst c; reflexivity]|]. split; vm_compute; reflexivity. Qed.
Print Assumptions C139_log_refuted.

(** Two entries: the one displays a number, the other a value that has no text of its own. *)
Example C139_example :
  let a := repeat "a"%char 40 in let b := repeat "0"%char 40 in
  display_ok (shown (a, lit "Args { x: 1 }") ++ shown (b, [])) = true /\
  display_ok (shown (a, lit "Args { x: 1 }") ++ shown (b, lit "Args { x: <unknown of type u8> }")) = false /\
  display_ok [] = false /\ display_ok (shown (tl a, lit "x")) = false /\
  replay_ok (shown (a, lit "Panicked") ++ shown (b, lit "Ret(Err(3))")) = true /\
  replay_ok (shown (a, lit "Ret(5)") ++ shown (b, lit "Ret(Err(3)) ")) = false.
Proof. vm_compute. repeat split; reflexivity. Qed.
