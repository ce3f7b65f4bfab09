(** Theorems about the patches of third parties' code and the scripts that change manifests and
    them (C127, C128). *)
From Coq Require Import Ascii String List Bool Arith NArith Lia.
From Verif Require Import Base Decimal SemverText InstallTest ThirdParty.
Import ListNotations.

Lemma split_on_ne c s : split_on c s <> [].
Proof. destruct s as [|a s]; cbn; [discriminate|]. destruct (ascii_dec a c); [discriminate|]. destruct (split_on c s); discriminate. Qed.
Lemma split_on_none c s : ~ In c s -> split_on c s = [s].
Proof.
  induction s as [|a s IH]; intros N; [reflexivity|]. cbn. destruct (ascii_dec a c) as [->|H]; [destruct N; now left|].
  rewrite IH; [reflexivity|]. intros I. apply N. now right.
Qed.
Lemma split_on_app c a : forall s, split_on c (a ++ c :: s) = split_on c a ++ split_on c s.
Proof.
  induction a as [|x a IH]; intros s; cbn [app split_on].
  - now destruct (ascii_dec c c).
  - destruct (ascii_dec x c); rewrite IH; [reflexivity|].
    destruct (split_on c a) eqn:E; [now apply split_on_ne in E|reflexivity].
Qed.

Lemma last_part_exists url : exists part, last_part url part.
Proof.
  induction url as [|c url (p & N & H)]; [exists []; split; [intros []|now left]|].
  destruct (ascii_dec c "/"%char) as [->|D].
  - destruct H as [->|(a & ->)].
    + exists p. split; [exact N|]. right. exists []. reflexivity.
    + exists p. split; [exact N|]. right. exists ("/"%char :: a). reflexivity.
  - destruct H as [->|(a & ->)].
    + exists (c :: p). split; [intros [E|I]; [now subst|contradiction]|now left].
    + exists p. split; [exact N|]. right. exists (c :: a). reflexivity.
Qed.

Lemma unprefixed_no i : forall part, ~ In "/"%char part -> unprefixed i part = part.
Proof.
  induction i as [|i IH]; intros p N; [reflexivity|]. cbn [unprefixed]. destruct (nth_error p i) as [c|] eqn:E; [|now apply IH].
  destruct (ascii_dec c "/"%char) as [->|D]; [|now apply IH]. destruct N. eapply nth_error_In, E.
Qed.
Lemma unprefixed_at a part : ~ In "/"%char part -> forall i, i <= List.length part ->
  unprefixed (S (List.length a) + i) (a ++ "/"%char :: part) = part.
Proof.
  intros N. induction i as [|i IH]; intros L.
  - rewrite Nat.add_0_r. cbn [unprefixed]. rewrite nth_error_app2, Nat.sub_diag; [cbn [nth_error]|lia].
    destruct (ascii_dec "/"%char "/"%char); [|contradiction].
    change (a ++ "/"%char :: part) with (a ++ ["/"%char] ++ part). rewrite (app_assoc a), skipn_app, skipn_all2; [|rewrite app_length; cbn; lia].
    rewrite app_length. cbn [List.length app]. replace (S (List.length a) - (List.length a + 1)) with 0 by lia. reflexivity.
  - replace (S (List.length a) + S i) with (S (S (List.length a) + i)) by lia. cbn [unprefixed].
    rewrite nth_error_app2; [|lia]. replace (S (List.length a) + i - List.length a) with (S i) by lia. cbn [nth_error].
    destruct (nth_error part i) as [c|] eqn:E; [|apply IH; lia].
    destruct (ascii_dec c "/"%char) as [->|D]; [|apply IH; lia]. destruct N. eapply nth_error_In, E.
Qed.

(** The test and the script that updates the patches mean the same file for every address, the one
    named after what follows the last slash. *)
Theorem C127_name :
  forall (url : str),
    (exists part, last_part url part) /\
    forall part, last_part url part -> patch url = Ret (part ++ lit ".patch") /\ script_patch url = part ++ lit ".patch".
Proof.
  intros url. split; [apply last_part_exists|]. intros p (N & [->|(a & ->)]).
  - unfold patch, script_patch. rewrite split_on_none by exact N. cbn [rev app]. split; [reflexivity|]. now rewrite unprefixed_no.
  - change (a ++ lit "/" ++ p) with (a ++ "/"%char :: p). unfold patch, script_patch. rewrite split_on_app, (split_on_none _ p) by exact N.
    rewrite rev_unit. split; [reflexivity|]. rewrite app_length. cbn [List.length].
    replace (List.length a + S (List.length p)) with (S (List.length a) + List.length p) by lia. rewrite unprefixed_at; [reflexivity|exact N|lia].
Qed.
Print Assumptions C127_name.

(** Different addresses may mean the same file: a fork has its origin's patch, and a slash at the
    end makes the name empty. *)
Theorem C127_name_refuted :
  exists url url' : str, url <> url' /\ patch url = patch url' /\
    exists url'', patch url'' = Ret (lit ".patch").
Proof.
  exists (lit "https://github.com/anza-xyz/sbpf"), (lit "https://github.com/solana-labs/sbpf"). repeat split; try discriminate.
  exists (lit "https://github.com/anza-xyz/sbpf/"). reflexivity.
Qed.
Print Assumptions C127_name_refuted.

(** A repository's tests are run unless they are expensive and not all tests were asked for, or
    the toolchain is nightly and they are not for it. *)
Theorem C127_run :
  forall (full nightly : bool) (f : flags),
    no_run full nightly f = false <->
    (expensive f = true -> full = true) /\ (skip_nightly f = true -> nightly = false).
Proof. intros [] [] [[] []]; cbn; intuition congruence. Qed.
Print Assumptions C127_run.

Lemma starts_with_split p : forall s, starts_with p s = true <-> exists t, s = p ++ t.
Proof.
  induction p as [|a p IH]; intros s; cbn; [split; eauto|]. destruct s as [|b s]; [split; [discriminate|now intros (? & ?)]|].
  destruct (ascii_dec a b) as [->|D].
  - rewrite IH. split; intros (t & E); exists t; congruence.
  - split; [discriminate|]. intros (t & E). congruence.
Qed.

Lemma forallb_hex l : forallb xdigit_b l = true <-> hex l.
Proof. rewrite forallb_forall; unfold hex; now rewrite Forall_forall. Qed.

Lemma firstn_exact {A} (a b : list A) : firstn (List.length a) (a ++ b) = a.
Proof. induction a as [|x a IH]; cbn; [now destruct b|now rewrite IH]. Qed.
Lemma skipn_over {A} n k (a b : list A) : n = List.length a + k -> skipn n (a ++ b) = skipn k b.
Proof. intros ->. induction a as [|x a IH]; cbn; [reflexivity|exact IH]. Qed.

Lemma is_index_spec l : is_index l = true <-> index_line l.
Proof.
  unfold is_index. repeat rewrite andb_true_iff. rewrite Nat.eqb_eq, !forallb_hex, !starts_with_split. split.
  - intros ((((((L & t1 & E1) & H1) & t2 & E2) & H2) & t3 & E3) & O).
    subst l. change (skipn 6 (lit "index " ++ t1)) with t1 in *. change (skipn 13 (lit "index " ++ t1)) with (skipn 7 t1) in *.
    change (skipn 15 (lit "index " ++ t1)) with (skipn 9 t1) in *. change (skipn 22 (lit "index " ++ t1)) with (skipn 16 t1) in *.
    change (skipn 23 (lit "index " ++ t1)) with (skipn 17 t1) in *. rewrite app_length in L. cbn [List.length lit String.list_ascii_of_string] in L.
    assert (L1 : List.length t1 = 23) by (cbn in L; lia).
    assert (F : List.length (firstn 7 t1) = 7) by (rewrite firstn_length; lia).
    assert (Q : t1 = firstn 7 t1 ++ lit ".." ++ t2) by (rewrite <- E2; symmetry; apply firstn_skipn).
    set (a := firstn 7 t1) in *. clearbody a.
    assert (S9 : skipn 9 t1 = t2) by (rewrite Q, (skipn_over 9 2) by (rewrite F; reflexivity); reflexivity).
    assert (L2 : List.length t2 = 14) by (apply (f_equal (@List.length ascii)) in Q; rewrite !app_length in Q; cbn in Q; lia).
    rewrite S9 in *.
    assert (F2 : List.length (firstn 7 t2) = 7) by (rewrite firstn_length; lia).
    assert (S16 : skipn 16 t1 = skipn 7 t2).
    { rewrite Q, (skipn_over 16 9) by (rewrite F; reflexivity). reflexivity. }
    assert (S17 : skipn 17 t1 = skipn 8 t2).
    { rewrite Q, (skipn_over 17 10) by (rewrite F; reflexivity). reflexivity. }
    rewrite S16, S17 in *.
    assert (Q2 : t2 = firstn 7 t2 ++ lit " " ++ t3) by (rewrite <- E3; symmetry; apply firstn_skipn).
    set (b := firstn 7 t2) in *. clearbody b.
    assert (S8 : skipn 8 t2 = t3) by (rewrite Q2, (skipn_over 8 1) by (rewrite F2; reflexivity); reflexivity).
    exists a, b, t3. split; [rewrite Q at 1; now rewrite Q2 at 1|]. split; [exact H1|]. split; [exact H2|]. rewrite S8 in O. split.
    + rewrite forallb_forall in O. now apply Forall_forall.
    + split; [exact F|]. split; [exact F2|]. apply (f_equal (@List.length ascii)) in Q2. rewrite !app_length in Q2. cbn in Q2. lia.
  - intros (a & b & m & -> & Ha & Hb & Hm & La & Lb & Lm).
    do 7 (destruct a as [|? a]; [discriminate|]). destruct a; [|discriminate].
    do 7 (destruct b as [|? b]; [discriminate|]). destruct b; [|discriminate].
    do 6 (destruct m as [|? m]; [discriminate|]). destruct m; [|discriminate].
    repeat split; cbn [app skipn firstn List.length lit String.list_ascii_of_string]; auto; try (eexists; reflexivity).
    now rewrite forallb_forall, <- Forall_forall.
Qed.

(** A patch is called current exactly if it and the difference have as many lines and each line is
    the other's, unless both are about contents. *)
Theorem C127_current :
  forall (patch diff : str),
    is_current patch diff = true <->
    Forall2 (fun x y => x = y \/ index_line x /\ index_line y) (lines patch) (lines diff).
Proof.
  intros p d. unfold is_current. generalize (lines p) as a, (lines d) as b. intros a b. rewrite andb_true_iff, Nat.eqb_eq, forallb_forall. split.
  - intros (L & H). revert b L H. induction a as [|x a IH]; intros [|y b] L H; try discriminate; constructor.
    + specialize (H (x, y) (or_introl eq_refl)). cbn [fst snd] in H. apply orb_true_iff in H as [H|H].
      * apply andb_true_iff in H as (X & Y). right. split; now apply is_index_spec.
      * left. now apply str_eqb_eq.
    + apply IH; [now injection L|]. intros z I. apply H. now right.
  - intros F. split; [induction F; cbn; congruence|]. induction F as [|x y a b H F IH]; [intros ? []|].
    intros z [<-|I]; [|now apply IH]. cbn [fst snd]. apply orb_true_iff. destruct H as [->|(X & Y)].
    + right. apply str_eqb_refl.
    + left. apply andb_true_iff. split; now apply is_index_spec.
Qed.
Print Assumptions C127_current.

(** Yet a patch that is called current need not be the difference: modes are not compared, nor are
    carriage returns at the ends of lines, which another repository's lines may have. *)
Theorem C127_current_refuted :
  (exists p d : str, is_current p d = true /\
     (exists a b, lines p = [lit "index " ++ a ++ lit " 100644"] /\ lines d = [lit "index " ++ b ++ lit " 100755"])) /\
  (exists p d : str, is_current p d = true /\ p <> d /\ Forall (fun l => ~ index_line l) (lines p ++ lines d)).
Proof.
  split.
  - exists (lit "index 77bbb10..a3234bc 100644"), (lit "index 77bbb10..a3234bc 100755"). split; [vm_compute; reflexivity|].
    exists (lit "77bbb10..a3234bc"), (lit "77bbb10..a3234bc"). split; vm_compute; reflexivity.
  - exists (lit "+x" ++ [CR; LF]), (lit "+x" ++ [LF]). split; [vm_compute; reflexivity|]. split; [discriminate|].
    assert (N : ~ index_line (lit "+x")) by (intros (a & b & m & E & _); discriminate).
    change (lines (lit "+x" ++ [CR; LF]) ++ lines (lit "+x" ++ [LF])) with [lit "+x"; lit "+x"]. now repeat (constructor; [exact N|]).
Qed.
Print Assumptions C127_current_refuted.

Lemma starts_with_app p a b : starts_with (p ++ a) (p ++ b) = starts_with a b.
Proof. induction p as [|c p IH]; cbn; [reflexivity|]. now destruct (ascii_dec c c). Qed.
Lemma xdigit_no c d : xdigit_b c = true -> xdigit_b d = false -> c <> d.
Proof. congruence. Qed.

(** Two texts without the character that ends both. *)
Lemma ended q : forall o r t, ~ In q o -> ~ In q r -> starts_with (o ++ [q]) (r ++ q :: t) = true -> o = r.
Proof.
  induction o as [|c o IH]; intros [|d r] t O R E; cbn in E.
  - reflexivity.
  - destruct (ascii_dec q d) as [->|]; [destruct R; now left|discriminate].
  - destruct (ascii_dec c q) as [->|]; [destruct O; now left|discriminate].
  - destruct (ascii_dec c d) as [->|]; [|discriminate]. f_equal. apply (IH r t); [intros I; apply O; now right|intros I; apply R; now right|exact E].
Qed.

Lemma hex_no c r : hex r -> xdigit_b c = false -> ~ In c r.
Proof. intros H X I. unfold hex in H. rewrite Forall_forall in H. specialize (H c I). congruence. Qed.

Lemma replace_first_no old new s : ~ occurs old s -> replace_first old new s = s.
Proof.
  induction s as [|c s IH]; intros N.
  - cbn. destruct old; [destruct N; exists [], []; reflexivity|reflexivity].
  - cbn [replace_first]. destruct (starts_with old (c :: s)) eqn:S.
    + apply starts_with_split in S as (t & E). destruct N. exists [], t. exact E.
    + f_equal. apply IH. intros (a & b & ->). apply N. exists (c :: a), b. reflexivity.
Qed.

Lemma no_quoted o r : hex o -> o <> [] -> hex r -> ~ occurs (quoted o) (r ++ lit """,").
Proof.
  intros O N R (a & b & E).
  unfold quoted in E. revert a E. induction r as [|c r IH]; intros a E.
  - destruct a as [|x a]; cbn in E.
    + destruct o as [|y o]; [contradiction|]. injection E as E _. inversion O as [|? ? Y]. now subst.
    + injection E as _ E. destruct a as [|z a]; cbn in E; [discriminate|]. injection E as _ E. destruct a; discriminate.
  - destruct a as [|x a]; cbn [app] in E.
    + injection E as -> _. apply (hex_no quote) in R; [|reflexivity]. destruct R. now left.
    + injection E as _ E. inversion R as [|? ? ? R']. exact (IH R' a E).
Qed.

Lemma replace_first_skip old new c s : starts_with old (c :: s) = false -> replace_first old new (c :: s) = c :: replace_first old new s.
Proof. intros E. cbn [replace_first]. now rewrite E. Qed.
Lemma replace_first_here old new t : replace_first old new (old ++ t) = new ++ t.
Proof.
  assert (E : starts_with old (old ++ t) = true) by (apply starts_with_split; now exists t).
  destruct (old ++ t) as [|c u] eqn:Q; cbn [replace_first]; rewrite E; rewrite <- Q; f_equal; now rewrite (skipn_over _ 0 old t) by lia.
Qed.
Lemma quoted_differs o c s : c <> quote -> starts_with (quoted o) (c :: s) = false.
Proof. intros D. unfold quoted. cbn [starts_with]. destruct (ascii_dec quote c); [now subst|reflexivity]. Qed.
Lemma quoted_second x o c s : x <> c -> starts_with (quoted (x :: o)) (quote :: c :: s) = false.
Proof. intros D. unfold quoted. cbn [starts_with app]. destruct (ascii_dec quote quote); [|reflexivity]. now destruct (ascii_dec x c). Qed.

Lemma set_rev_line o n r : revision o -> revision r ->
  replace_first (quoted o) (quoted n) (rev_line r) = rev_line (if str_eqb o r then n else r).
Proof.
  intros (No & O) (Nr & R). unfold rev_line.
  assert (H : forall x y, (replace_first (quoted o) (quoted n) (quote :: x) = quote :: y) ->
    replace_first (quoted o) (quoted n) (lit "    ""rev"": " ++ quote :: x) = lit "    ""rev"": " ++ quote :: y).
  { intros x y E. destruct o as [|c o]; [contradiction|]. assert (C : xdigit_b c = true) by now inversion O.
    change (lit "    ""rev"": " ++ quote :: x) with (" " :: " " :: " " :: " " :: quote :: "r" :: "e" :: "v" :: quote :: ":" :: " " :: quote :: x)%char.
    do 4 (rewrite replace_first_skip by (apply quoted_differs; discriminate)).
    rewrite replace_first_skip by (apply quoted_second, xdigit_no; [exact C|reflexivity]).
    do 3 (rewrite replace_first_skip by (apply quoted_differs; discriminate)).
    rewrite replace_first_skip by (apply quoted_second, xdigit_no; [exact C|reflexivity]).
    do 2 (rewrite replace_first_skip by (apply quoted_differs; discriminate)). rewrite E. reflexivity. }
  change (lit "    ""rev"": """ ++ r ++ lit """,") with (lit "    ""rev"": " ++ quote :: (r ++ quote :: lit ",")).
  change (lit "    ""rev"": """ ++ (if str_eqb o r then n else r) ++ lit """,") with (lit "    ""rev"": " ++ quote :: ((if str_eqb o r then n else r) ++ quote :: lit ",")).
  apply H. destruct (str_eqb o r) eqn:E.
  - apply str_eqb_eq in E. subst r. pose proof (replace_first_here (quoted o) (quoted n) (lit ",")) as K.
    assert (Q : forall x, quoted x ++ lit "," = quote :: x ++ quote :: lit ",") by (intros x; unfold quoted; cbn [app]; now rewrite <- app_assoc).
    now rewrite !Q in K.
  - apply str_eqb_neq in E. rewrite replace_first_skip.
    + f_equal. apply replace_first_no. now apply no_quoted.
    + destruct (starts_with (quoted o) (quote :: r ++ quote :: lit ",")) eqn:S; [|reflexivity]. destruct E.
      unfold quoted in S. cbn [starts_with] in S. destruct (ascii_dec quote quote); [|discriminate].
      eapply ended; [| |exact S]; (apply hex_no; [assumption|reflexivity]).
Qed.

Lemma set_revs_nth l : forall file i x, nth_error file i = Some x ->
  nth_error (set_revs l file) i = Some (fold_left (fun y r => replace_first (quoted (fst r)) (quoted (snd r)) y) l x).
Proof.
  induction l as [|(o, n) l IH]; intros file i x E; [exact E|]. unfold set_revs in *. cbn [fold_left fst snd]. apply IH.
  unfold set_rev. now rewrite nth_error_map, E.
Qed.

(** Updating the revisions gives each line with a revision the one at the head of its repository
    and changes nothing else, if no later repository has one of the revisions involved and another
    head. *)
Theorem C127_revisions :
  forall (l : list (str * str)) (file : list str),
    Forall (fun r => revision (fst r) /\ revision (snd r)) l ->
    (forall l1 o n l2 o' n', l = l1 ++ (o, n) :: l2 -> In (o', n') l2 -> o' = o \/ o' = n -> n' = n) ->
    List.length (set_revs l file) = List.length file /\
    (forall i r, nth_error file i = Some (rev_line r) -> revision r ->
       (forall n, In (r, n) l -> nth_error (set_revs l file) i = Some (rev_line n)) /\
       ((forall n, ~ In (r, n) l) -> nth_error (set_revs l file) i = Some (rev_line r))) /\
    (forall i x, nth_error file i = Some x -> (forall o n, In (o, n) l -> ~ occurs (quoted o) x) ->
       nth_error (set_revs l file) i = Some x).
Proof.
  intros l file R D. split; [|split].
  - revert file. clear R D. induction l as [|r l IH]; intros file; [reflexivity|]. unfold set_revs in *. cbn [fold_left]. rewrite IH. apply map_length.
  - intros i r E Rr. rewrite (set_revs_nth _ _ _ _ E). clear E.
    assert (K : forall l r n, Forall (fun r => revision (fst r) /\ revision (snd r)) l -> revision r ->
      (forall n', In (r, n') l -> n' = n) -> (In (r, n) l \/ r = n) ->
      (forall l1 o m l2 o' n', l = l1 ++ (o, m) :: l2 -> In (o', n') l2 -> o' = o \/ o' = m -> n' = m) ->
      fold_left (fun y r => replace_first (quoted (fst r)) (quoted (snd r)) y) l (rev_line r) = rev_line n).
    { clear. induction l as [|(o, m) l IH]; intros r n R Rr U I D; cbn [fold_left fst snd].
      - destruct I as [[]| ->]. reflexivity.
      - inversion R as [|? ? (Ro & Rm) R']; subst. cbn [fst snd] in *. rewrite set_rev_line by assumption.
        assert (D' : forall l1 o m l2 o' n', l = l1 ++ (o, m) :: l2 -> In (o', n') l2 -> o' = o \/ o' = m -> n' = m).
        { intros l1 o1 m1 l2 o2 n2 E. apply (D ((o, m) :: l1) o1 m1). cbn [app]. now rewrite E. }
        destruct (str_eqb o r) eqn:E.
        + apply str_eqb_eq in E. subst r. assert (m = n) by (apply U; now left). subst m.
          apply IH; auto. intros n' I'. apply (D [] o n l n n' eq_refl I'). now right.
        + apply str_eqb_neq in E. apply IH; auto. * intros n' I'. apply U. now right.
          * destruct I as [[Q|I]|I]; [congruence|now left|now right]. }
    split.
    + intros n I. f_equal. apply K; auto. intros n' I'. apply in_split in I as (l1 & l2 & ->).
      apply in_app_or in I' as [I'|[I'|I']]; [|congruence|].
      * apply in_split in I' as (l3 & l4 & ->). symmetry.
        apply (D l3 r n' (l4 ++ (r, n) :: l2) r n); [now rewrite <- app_assoc|apply in_or_app; right; now left|now left].
      * apply (D l1 r n l2 r n' eq_refl I'). now left.
    + intros N. f_equal. apply K; auto. intros n' I. now apply N in I.
  - intros i x E N. rewrite (set_revs_nth _ _ _ _ E). f_equal. clear - N. revert N. induction l as [|(o, n) l IH]; intros N; [reflexivity|].
    cbn [fold_left fst snd]. rewrite replace_first_no; [|apply (N o n); now left]. apply IH. intros o' n' I. apply (N o' n'). now right.
Qed.
Print Assumptions C127_revisions.

(** A fork that is at its origin's head breaks this: the origin gets the head of the fork, which it
    does not have. *)
Theorem C127_revisions_refuted :
  exists (l : list (str * str)) (r n : str),
    Forall (fun r => revision (fst r) /\ revision (snd r)) l /\ NoDup (map fst l) /\ NoDup (map snd l) /\
    In (r, n) l /\ set_revs l (map (fun x => rev_line (fst x)) l) <> map (fun x => rev_line (snd x)) l /\
    nth_error (map (fun x => rev_line (fst x)) l) 0 = Some (rev_line r) /\
    nth_error (set_revs l (map (fun x => rev_line (fst x)) l)) 0 <> Some (rev_line n).
Proof.
  exists [(lit "2be5732", lit "db4f068"); (lit "db4f068", lit "354e890")], (lit "2be5732"), (lit "db4f068").
  assert (H : forall s, forallb xdigit_b (lit s) = true -> hex (lit s)) by (intros s E; now apply forallb_hex).
  split; [repeat constructor; cbn [fst snd]; try discriminate; apply H; reflexivity|].
  split; [cbn [map fst]; repeat constructor; cbn; intuition discriminate|].
  split; [cbn [map snd]; repeat constructor; cbn; intuition discriminate|].
  split; [now left|]. split; [vm_compute; discriminate|]. split; [reflexivity|]. vm_compute. discriminate.
Qed.
Print Assumptions C127_revisions_refuted.

(** The four repositories. *)
Example C127_example :
  map patch [lit "https://github.com/CosmWasm/cw-plus"; lit "https://github.com/anza-xyz/sbpf"] = [Ret (lit "cw-plus.patch"); Ret (lit "sbpf.patch")] /\
  map (no_run false true) [mkf false true; mkf true true; mkf false false] = [true; true; false] /\
  is_current (lit "index 77bbb10..a3234bc 100644" ++ [LF] ++ lit "+a" ++ [LF]) (lit "index 0000000..a3234bc 100644" ++ [LF] ++ lit "+a" ++ [LF]) = true /\
  is_current (lit "index 77bbb10..a3234bc 100644" ++ [LF]) (lit "index 77bbb10c..a3234bcd 100644" ++ [LF]) = false /\
  is_current (lit "+a") (lit "+a" ++ [LF] ++ lit "+b") = false /\
  set_revs [(lit "2be5732", lit "018f456"); (lit "354e890", lit "354e890")] [lit "    ""flags"": [],"; rev_line (lit "2be5732"); rev_line (lit "354e890")] =
    [lit "    ""flags"": [],"; rev_line (lit "018f456"); rev_line (lit "354e890")].
Proof. vm_compute. repeat split. Qed.

Lemma digits_app a : forall r, Forall is_digit a -> no_digit r -> digits (a ++ r) = (a, r).
Proof.
  induction a as [|c a IH]; intros r A R; cbn [app digits].
  - destruct r as [|c r]; [reflexivity|]. cbn. destruct (digit_b c) eqn:D; [|reflexivity]. apply digit_b_spec in D. now apply (R c r) in D.
  - inversion A as [|? ? C A']; subst. apply digit_b_spec in C. rewrite C, (IH r A' R). reflexivity.
Qed.
Lemma digits_inv s : forall a r, digits s = (a, r) -> s = a ++ r /\ Forall is_digit a.
Proof.
  induction s as [|c s IH]; intros a r E; cbn in E; [injection E as <- <-; split; [reflexivity|constructor]|].
  destruct (digit_b c) eqn:D; [|injection E as <- <-; split; [reflexivity|constructor]].
  destruct (digits s) as [a' r'] eqn:Q. injection E as <- <-. destruct (IH a' r' eq_refl) as (-> & F). split; [reflexivity|].
  constructor; [now apply digit_b_spec|exact F].
Qed.
Lemma some_digits_app a r : number a -> no_digit r -> some_digits (a ++ r) = Some (a, r).
Proof. intros (N & A) R. unfold some_digits. rewrite digits_app by assumption. now destruct a. Qed.
Lemma some_digits_inv s a r : some_digits s = Some (a, r) -> s = a ++ r /\ number a.
Proof.
  unfold some_digits. destruct (digits s) as [[|x a'] r'] eqn:E; [discriminate|]. intros Q. injection Q as <- <-. apply digits_inv in E as (-> & F).
  split; [reflexivity|]. split; [discriminate|exact F].
Qed.
Lemma strip_prefix_inv p s t : strip_prefix p s = Some t -> s = p ++ t.
Proof.
  unfold strip_prefix. destruct (starts_with p s) eqn:E; [|discriminate]. apply starts_with_split in E as (u & ->). intros Q. injection Q as <-.
  now rewrite (skipn_over _ 0 p u) by lia.
Qed.
Lemma strip_prefix_app p t : strip_prefix p (p ++ t) = Some t.
Proof.
  unfold strip_prefix. assert (E : starts_with p (p ++ t) = true) by (apply starts_with_split; now exists t). rewrite E.
  now rewrite (skipn_over _ 0 p t) by lia.
Qed.
Lemma no_digit_quote s : no_digit (quote :: s).
Proof. intros c t E D. injection E as <- _. apply digit_b_spec in D. discriminate. Qed.

Lemma shortened_spec s t :
  shortened s = Some t <->
  exists a b c y, number a /\ number b /\ number c /\ s = triple a b c ++ y /\ t = quoted (a ++ lit "." ++ b) ++ y.
Proof.
  split.
  - unfold shortened. intros E.
    destruct (strip_prefix [quote] s) as [s1|] eqn:E1; [|discriminate]. apply strip_prefix_inv in E1.
    destruct (some_digits s1) as [[a s2]|] eqn:E2; [|discriminate]. apply some_digits_inv in E2 as (E2 & A).
    destruct (strip_prefix dot s2) as [s3|] eqn:E3; [|discriminate]. apply strip_prefix_inv in E3.
    destruct (some_digits s3) as [[b s4]|] eqn:E4; [|discriminate]. apply some_digits_inv in E4 as (E4 & B).
    destruct (strip_prefix dot s4) as [s5|] eqn:E5; [|discriminate]. apply strip_prefix_inv in E5.
    destruct (some_digits s5) as [[c s6]|] eqn:E6; [|discriminate]. apply some_digits_inv in E6 as (E6 & C).
    destruct (strip_prefix [quote] s6) as [s7|] eqn:E7; [|discriminate]. apply strip_prefix_inv in E7.
    assert (Q : t = quoted (a ++ dot ++ b) ++ s7) by (symmetry; now injection E).
    exists a, b, c, s7. repeat (split; [assumption|]). split; [|exact Q]. subst. unfold triple, quoted, dot. cbn [app]. f_equal.
    now rewrite <- !app_assoc.
  - intros (a & b & c & y & A & B & C & -> & ->). unfold shortened, triple.
    assert (Q : quoted (a ++ lit "." ++ b ++ lit "." ++ c) ++ y = [quote] ++ a ++ dot ++ b ++ dot ++ c ++ [quote] ++ y).
    { unfold quoted, dot. cbn [app]. f_equal. now rewrite <- !app_assoc. }
    rewrite Q, strip_prefix_app, (some_digits_app a) by (try exact A; apply no_digit_dot).
    rewrite strip_prefix_app, (some_digits_app b) by (try exact B; apply no_digit_dot).
    rewrite strip_prefix_app, (some_digits_app c) by (try exact C; apply no_digit_quote).
    now rewrite strip_prefix_app.
Qed.

Lemma triple_shortened a b c y : number a -> number b -> number c -> shortened (triple a b c ++ y) = Some (quoted (a ++ lit "." ++ b) ++ y).
Proof. intros A B C. apply shortened_spec. exists a, b, c, y. auto. Qed.

Lemma shorten_none s : ~ has_triple s -> shorten s = s.
Proof.
  induction s as [|c s IH]; intros N; [reflexivity|]. cbn [shorten]. destruct (shortened (c :: s)) as [t|] eqn:E.
  - apply shortened_spec in E as (a & b & d & y & A & B & D & E & _). destruct N. exists [], a, b, d, y. auto.
  - f_equal. apply IH. intros (x & a & b & d & y & A & B & D & ->). apply N. exists (c :: x), a, b, d, y. auto.
Qed.

Lemma shorten_at x a b c y : number a -> number b -> number c ->
  (forall x' a' b' c' y', number a' -> number b' -> number c' -> x ++ triple a b c ++ y = x' ++ triple a' b' c' ++ y' -> List.length x <= List.length x') ->
  shorten (x ++ triple a b c ++ y) = x ++ quoted (a ++ lit "." ++ b) ++ y.
Proof.
  intros A B C. induction x as [|e x IH]; intros L; cbn [app].
  - pose proof (triple_shortened a b c y A B C) as E. destruct (triple a b c ++ y) as [|q s] eqn:Q; [discriminate|]. cbn [shorten]. now rewrite E.
  - cbn [shorten]. destruct (shortened (e :: x ++ triple a b c ++ y)) as [t|] eqn:E.
    + apply shortened_spec in E as (a' & b' & c' & y' & A' & B' & C' & E & _). specialize (L [] a' b' c' y' A' B' C' E). cbn in L. lia.
    + f_equal. apply IH. intros x' a' b' c' y' A' B' C' E'. specialize (L (e :: x') a' b' c' y' A' B' C'). cbn [app List.length] in L.
      apply le_S_n, L. now rewrite E'.
Qed.

Lemma first_triple s : has_triple s -> exists x a b c y, number a /\ number b /\ number c /\ s = x ++ triple a b c ++ y /\
  (forall x' a' b' c' y', number a' -> number b' -> number c' -> s = x' ++ triple a' b' c' ++ y' -> List.length x <= List.length x').
Proof.
  induction s as [|e s IH]; intros H.
  - destruct H as (x & a & b & c & y & _ & _ & _ & E). destruct x; discriminate.
  - destruct (shortened (e :: s)) as [t|] eqn:E.
    + apply shortened_spec in E as (a & b & c & y & A & B & C & E & _). exists [], a, b, c, y. repeat (split; [assumption|]). intros. cbn. lia.
    + assert (H' : has_triple s).
      { destruct H as ([|d x] & a & b & c & y & A & B & C & Q).
        - cbn [app] in Q. rewrite Q, triple_shortened in E by assumption. discriminate.
        - injection Q as _ Q. exists x, a, b, c, y. auto. }
      destruct (IH H') as (x & a & b & c & y & A & B & C & -> & L). exists (e :: x), a, b, c, y. repeat (split; [assumption|]). split; [reflexivity|].
      intros [|d x'] a' b' c' y' A' B' C' Q.
      * cbn [app] in Q. rewrite Q, triple_shortened in E by assumption. discriminate.
      * cbn [List.length]. apply le_n_S, (L x' a' b' c' y'); try assumption. now injection Q.
Qed.

Lemma own_version_spec l : own_version l = true <-> exists t, l = lit "version" ++ t /\ (forall c t', t = c :: t' -> in_word c = false).
Proof.
  unfold own_version. split.
  - destruct (strip_prefix (lit "version") l) as [t|] eqn:E; [|discriminate]. apply strip_prefix_inv in E. intros H. exists t. split; [exact E|].
    intros c t' ->. now apply negb_true_iff.
  - intros (t & -> & H). rewrite strip_prefix_app. destruct t as [|c t]; [reflexivity|]. now rewrite (H c t eq_refl).
Qed.

(** On each line that does not begin with the word [version], the first text in quotation marks that
    is three numbers loses the third; nothing else changes. *)
Theorem C128_line :
  forall (l : str),
    ((exists t, l = lit "version" ++ t /\ (forall c t', t = c :: t' -> in_word c = false)) /\ remove_patch_version l = l) \/
    (~ has_triple l /\ remove_patch_version l = l) \/
    (~ (exists t, l = lit "version" ++ t /\ (forall c t', t = c :: t' -> in_word c = false)) /\
     exists x a b c y, number a /\ number b /\ number c /\ l = x ++ triple a b c ++ y /\
       (forall x' a' b' c' y', number a' -> number b' -> number c' -> l = x' ++ triple a' b' c' ++ y' -> List.length x <= List.length x') /\
       remove_patch_version l = x ++ quoted (a ++ lit "." ++ b) ++ y).
Proof.
  intros l. unfold remove_patch_version. destruct (own_version l) eqn:O; [left; split; [now apply own_version_spec|reflexivity]|right].
  assert (NO : ~ (exists t, l = lit "version" ++ t /\ (forall c t', t = c :: t' -> in_word c = false))).
  { intros H. apply own_version_spec in H. congruence. }
  assert (T : forall s, has_triple s \/ ~ has_triple s).
  { induction s as [|e s IH]; [right; intros (x & a & b & c & y & _ & _ & _ & E); destruct x; discriminate|].
    destruct (shortened (e :: s)) as [t|] eqn:E.
    - left. apply shortened_spec in E as (a & b & c & y & A & B & C & E & _). exists [], a, b, c, y. auto.
    - destruct IH as [(x & a & b & c & y & A & B & C & ->)|N]; [left; exists (e :: x), a, b, c, y; auto|right].
      intros ([|d x] & a & b & c & y & A & B & C & Q).
      + cbn [app] in Q. rewrite Q, triple_shortened in E by assumption. discriminate.
      + injection Q as _ Q. apply N. exists x, a, b, c, y. auto. }
  destruct (T l) as [H|H]; [right|left; split; [exact H|now apply shorten_none]].
  split; [exact NO|]. destruct (first_triple l H) as (x & a & b & c & y & A & B & C & E & L). exists x, a, b, c, y.
  do 4 (split; [assumption|]). split; [exact L|]. clear O NO H T. subst l. now apply shorten_at.
Qed.
Print Assumptions C128_line.

(** So a second run may still change a line. *)
Theorem C128_again_refuted :
  exists l : str, remove_patch_version (remove_patch_version l) <> remove_patch_version l.
Proof. exists (lit "x = { version = ""1.2.3"", tag = ""1.2.3"" }"). vm_compute. discriminate. Qed.
Print Assumptions C128_again_refuted.

Local Open Scope N_scope.

Lemma req_three a b c : a < 2 ^ 64 -> b < 2 ^ 64 -> c < 2 ^ 64 ->
  read_req (dec a ++ lit "." ++ dec b ++ lit "." ++ dec c) = Some [mkc Caret a (Some b) (Some c) []].
Proof.
  intros A B C. apply (written_req (mkt a b c [] []) _ Caret).
  - exists (dec a), (dec b), (dec c), [], []. repeat (split; [apply dec_numeral|]). split; [left; auto|]. split; [left; auto|]. now rewrite !app_nil_r.
  - split; [auto|]. split; constructor.
Qed.

Lemma req_two a b : a < 2 ^ 64 -> b < 2 ^ 64 ->
  read_req (dec a ++ lit "." ++ dec b) = Some [mkc Caret a (Some b) None []].
Proof.
  intros A B. pose proof (dec_numeral a) as Na. pose proof (dec_numeral b) as Nb.
  assert (Ka : skip_spaces (dec a ++ lit "." ++ dec b) = dec a ++ lit "." ++ dec b) by (destruct Na as (N & F & _); now apply skip_spaces_digit).
  unfold read_req. rewrite Ka. unfold read_comparator.
  assert (S0 : strip_prefix (lit ">=") (dec a ++ lit "." ++ dec b) = None).
  { destruct (strip_prefix (lit ">=") (dec a ++ lit "." ++ dec b)) eqn:E; [|reflexivity].
    apply strip_prefix_inv in E. destruct Na as (N & F & _). destruct (dec a) as [|x t]; [contradiction|]. inversion F as [|? ? D F']; subst.
    injection E as -> _. unfold is_digit in D. cbn in D. lia. }
  rewrite S0, Ka. change (lit "." ++ dec b) with ("."%char :: dec b). rewrite (numeric_app _ (dec a) _ Na A (no_digit_dot _)). unfold component.
  rewrite strip_dot. rewrite <- (app_nil_r (dec b)), (numeric_app _ (dec b) [] Nb B); [reflexivity|]. intros c t E. discriminate.
Qed.

(** What is left of a requirement admits exactly the releases with the same major version and no
    smaller minor one (the same, if the major version is zero); so it admits what the requirement
    admitted. *)
Theorem C128_weaker :
  forall (a b c : N), a < 2 ^ 64 -> b < 2 ^ 64 -> c < 2 ^ 64 ->
    exists r r',
      read_req (dec a ++ lit "." ++ dec b ++ lit "." ++ dec c) = Some r /\
      read_req (dec a ++ lit "." ++ dec b) = Some r' /\
      forall v, (matches_req r v = true -> matches_req r' v = true) /\
        (matches_req r' v = true <->
         t_pre v = [] /\ t_major v = a /\ (0 < a -> b <= t_minor v) /\ (a = 0 -> t_minor v = b)).
Proof.
  intros a b c A B C. exists [mkc Caret a (Some b) (Some c) []], [mkc Caret a (Some b) None []].
  split; [now apply req_three|]. split; [now apply req_two|]. intros v.
  assert (E : matches_req [mkc Caret a (Some b) None []] v = true <->
         t_pre v = [] /\ t_major v = a /\ (0 < a -> b <= t_minor v) /\ (a = 0 -> t_minor v = b)).
  { unfold matches_req, satisfied, caret, tpre_compatible. cbn [forallb existsb c_op c_major c_minor c_patch c_pre].
    rewrite !andb_false_r. cbn [orb]. destruct (t_pre v) as [|w p]; [|rewrite andb_false_r; split; [discriminate|intros (H & _); discriminate]].
    rewrite !andb_true_r. destruct (N.eqb_spec (t_major v) a) as [M|M]; cbn [negb].
    - destruct (N.ltb_spec 0 a) as [P|P].
      + rewrite N.leb_le. intuition lia.
      + rewrite N.eqb_eq. intuition lia.
    - split; [discriminate|intros (_ & H & _); contradiction]. }
  split; [|exact E]. intros H. apply E. clear E.
  unfold matches_req, satisfied, caret, tpre_compatible in H. cbn [forallb existsb c_op c_major c_minor c_patch c_pre] in H.
  rewrite !andb_false_r in H. cbn [orb] in H. destruct (t_pre v) as [|w p]; [|rewrite andb_false_r in H; discriminate]. rewrite !andb_true_r in H.
  split; [reflexivity|]. destruct (N.eqb_spec (t_major v) a) as [M|M]; cbn [negb] in H; [|discriminate]. split; [exact M|].
  destruct (N.ltb_spec 0 a) as [P|P].
  - destruct (N.eqb_spec (t_minor v) b) as [Q|Q]; cbn [negb] in H; [split; intros; lia|]. apply N.ltb_lt in H. split; intros; lia.
  - split; [lia|]. intros _. destruct (N.ltb_spec 0 b); destruct (N.eqb_spec (t_minor v) b) as [Q|Q]; cbn [negb orb] in H; try discriminate; assumption.
Qed.
Print Assumptions C128_weaker.

(** It need not be compatible, though: of [0.0.3] what is left admits [0.0.4], which [0.0.3] does
    not. *)
Theorem C128_compatible_refuted :
  exists (l l' : str) (r r' : list comparator) (v : tversion),
    l = lit "x = ""0.0.3""" /\ remove_patch_version l = l' /\ l' = lit "x = ""0.0""" /\
    read_req (lit "0.0.3") = Some r /\ read_req (lit "0.0") = Some r' /\
    t_patch v = 4 /\ matches_req r v = false /\ matches_req r' v = true.
Proof.
  exists (lit "x = ""0.0.3"""), (lit "x = ""0.0"""), [mkc Caret 0 (Some 0) (Some 3) []], [mkc Caret 0 (Some 0) None []], (mkt 0 0 4 [] []).
  vm_compute. repeat split.
Qed.
Print Assumptions C128_compatible_refuted.

(** Lines of the manifests here. *)
Example C128_example :
  remove_patch_version (lit "version = ""7.0.4""") = lit "version = ""7.0.4""" /\
  remove_patch_version (lit "version.workspace = ""7.0.4""") = lit "version.workspace = ""7.0.4""" /\
  remove_patch_version (lit "versions = ""7.0.4""") = lit "versions = ""7.0""" /\
  remove_patch_version (lit "anyhow = ""1.0.95""") = lit "anyhow = ""1.0""" /\
  remove_patch_version (lit "afl = { version = ""0.15.24"", features = [""a""] }") = lit "afl = { version = ""0.15"", features = [""a""] }" /\
  remove_patch_version (lit "test-fuzz = { path = ""test-fuzz"", version = ""=7.0.4"" }") = lit "test-fuzz = { path = ""test-fuzz"", version = ""=7.0.4"" }" /\
  remove_patch_version (lit "x = ""1.0.0-rc.1""") = lit "x = ""1.0.0-rc.1""".
Proof. vm_compute. repeat split. Qed.
