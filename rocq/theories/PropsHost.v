(** C106: what recording does to the program that hosts it. *)
From Coq Require Import List Ascii String Bool Arith Lia.
From stdpp Require Import gmap strings.
From Verif Require Import Base Utf8 Env Dirs Sha1 Fs Write Harness PropsHarness Host.
Import ListNotations.
Local Open Scope nat_scope.
Opaque sha1 corpus_name.

(** * Specification *)

Section Spec.
  Context {A V : Type}.
  Variable metadata : fs -> path -> option str -> option path.
  Variable bytes_of : instr -> A -> option bytes.
  Variable cfg_test : bool.

  (** Is a call recorded in this state? *)
  Definition recorded_now (t : instr) (s : host) : Prop :=
    if cfg_test then ~ switched_on (h_env s) (lit "TEST_FUZZ")
    else f_enable_in_production (t_opts t) = true /\ switched_on (h_env s) (lit "TEST_FUZZ_WRITE").

  (** The target directory as seen from a state. *)
  Definition target_dir (s : host) : option path :=
    metadata (h_fs s) (h_cwd s) (var (h_env s) (lit "TEST_FUZZ_MANIFEST_PATH")).

  (** What a call records: kind, name of a type in the generated module, contents. *)
  Inductive records (t : instr) (a : A) : str -> str -> option bytes -> Prop :=
    | r_impl : records t a (lit "impl_generic_args") (t_type_g t) (Some (join (lit ", ") (t_impl_names t)))
    | r_fn : records t a (lit "generic_args") (t_type_g t) (Some (join (lit ", ") (t_names t)))
    | r_args : f_only_generic_args (t_opts t) = false -> records t a (lit "corpus") (t_type_a t) (bytes_of t a).

  (** The suffix that TEST_FUZZ_ID puts to the directories. *)
  Definition suffix (s : host) : str :=
    match var (h_env s) (lit "TEST_FUZZ_ID") with Some i => lit "_" ++ i | None => [] end.

  (** The directory for data of the kind: named after what precedes the first "_fuzz__". *)
  Definition goes_to (s : host) (kind tn : str) (d : path) : Prop :=
    exists td pre post,
      target_dir s = Some td /\ tn = pre ++ lit "_fuzz__" ++ post /\ ~ occurs (lit "_fuzz__") (pre ++ lit "_fuzz_") /\
      d = td ++ [kind ++ suffix s; pre].

  (** Something makes it impossible to record a call. *)
  Definition impeded (t : instr) (a : A) (s : host) : Prop :=
    target_dir s = None \/
    exists kind tn data, records t a kind tn data /\
      (data = None \/
       ~ occurs (lit "_fuzz__") tn \/
       exists d, goes_to s kind tn d /\
         ((exists q b, q <> [] /\ under q d /\ h_fs s !! q = Some (File b)) \/
          (exists x, data = Some x /\ h_fs s !! (d ++ [corpus_name x]) = Some Dir))).

  (** Places that recordings may change: directories of recordings in any target directory
      that cargo may report, and the way to it. *)
  Definition ours (p : path) : Prop :=
    exists m cwd mp td, metadata m cwd mp = Some td /\
      (under p td \/
       exists kind sfx, In kind [lit "impl_generic_args"; lit "generic_args"; lit "corpus"] /\ under (td ++ [kind ++ sfx]) p).

  Definition agree (m m' : fs) : Prop := forall p, ~ ours p -> m !! p = m' !! p.

  Definition same (s s' : host) : Prop :=
    h_cwd s = h_cwd s' /\ h_env s = h_env s' /\ agree (h_fs s) (h_fs s').

  (** The program does not look at those places. *)
  Inductive blind : prog A V -> Prop :=
    | b_return v : blind (Return v)
    | b_unwind : blind Unwind
    | b_step f k : (forall s s', same s s' -> same (f s) (f s') /\ k s = k s') -> (forall s, blind (k s)) -> blind (Step f k)
    | b_call t a body k : blind body -> (forall r, blind (k r)) -> blind (Call t a body k).

  (** The program leaves well-formed file systems well-formed. *)
  Inductive tidy : prog A V -> Prop :=
    | y_return v : tidy (Return v)
    | y_unwind : tidy Unwind
    | y_step f k : (forall s, fs_wf (h_fs s) -> fs_wf (h_fs (f s))) -> (forall s, tidy (k s)) -> tidy (Step f k)
    | y_call t a body k : tidy body -> (forall r, tidy (k r)) -> tidy (Call t a body k).
End Spec.

(** * Proofs *)

Lemma mkdirs_fails m pre rest :
  (mkdirs m pre rest).2 = false <-> exists q b, q <> [] /\ is_prefix q rest = true /\ m !! (pre ++ q) = Some (File b).
Proof.
  revert m pre. induction rest as [|c rest IH]; intros m pre; simpl.
  { split; [discriminate|]. intros (q & b & N & P & _). destruct q; [contradiction|discriminate]. }
  assert (G : forall m', (forall q', q' <> [] -> m' !! ((pre ++ [c]) ++ q') = m !! ((pre ++ [c]) ++ q')) ->
              (forall b, m !! (pre ++ [c]) <> Some (File b)) ->
              (mkdirs m' (pre ++ [c]) rest).2 = false <-> exists q b, q <> [] /\ is_prefix q (c :: rest) = true /\ m !! (pre ++ q) = Some (File b)).
  { intros m' E NF. rewrite IH. split.
    - intros (q & b & N & P & L). exists (c :: q), b. split; [discriminate|]. split; [simpl; now destruct (str_dec c c)|].
      rewrite (E q N) in L. now rewrite <- app_assoc in L.
    - intros (q & b & N & P & L). destruct q as [|c' q]; [contradiction|]. simpl in P. destruct (str_dec c' c) as [->|]; [|discriminate].
      destruct q as [|x q]; [now apply NF in L|]. exists (x :: q), b. split; [discriminate|]. split; [exact P|].
      rewrite E by discriminate. now rewrite <- app_assoc. }
  destruct (m !! (pre ++ [c])) as [[b|]|] eqn:L.
  - simpl. split; [|reflexivity]. intros _. exists [c], b. split; [discriminate|]. split; [simpl; now destruct (str_dec c c)|exact L].
  - apply G; [reflexivity|congruence].
  - apply G; [|congruence]. intros q' N. rewrite lookup_insert_ne; [reflexivity|]. intros E.
    apply (f_equal (@List.length _)) in E. rewrite !app_length in E. destruct q'; [contradiction|]. simpl in E. lia.
Qed.

Lemma wf_insert (m : fs) p n : fs_wf m -> is_dir m (parent p) = true -> p <> [] -> (n = Dir \/ m !! p <> Some Dir) -> fs_wf (<[p := n]> m).
Proof.
  intros W D N K q x L. assert (I : forall r, is_dir m r = true -> is_dir (<[p := n]> m) r = true).
  { intros r R. unfold is_dir in *. destruct r as [|c r]; [reflexivity|]. destruct (decide (p = c :: r)) as [->|Ne].
    - rewrite lookup_insert. destruct (m !! (c :: r)) as [[]|]; try discriminate. destruct K as [->|K]; [reflexivity|now elim K].
    - now rewrite lookup_insert_ne. }
  apply I. destruct (decide (p = q)) as [<-|Ne]; [exact D|]. rewrite lookup_insert_ne in L by exact Ne. exact (W q x L).
Qed.

Lemma wf_mkdirs m pre rest : fs_wf m -> is_dir m pre = true -> fs_wf (mkdirs m pre rest).1.
Proof.
  revert m pre. induction rest as [|c rest IH]; intros m pre W D; simpl; [exact W|].
  destruct (m !! (pre ++ [c])) as [[b|]|] eqn:L; simpl; [exact W| |].
  - apply IH; [exact W|]. unfold is_dir. destruct (pre ++ [c]) eqn:E; [reflexivity|]. now rewrite L.
  - apply IH.
    + apply wf_insert; [exact W|now rewrite parent_snoc|destruct pre; discriminate|now left].
    + unfold is_dir. destruct (pre ++ [c]) eqn:E; [reflexivity|]. now rewrite lookup_insert.
Qed.

Lemma wf_write_data m d x : fs_wf m -> fs_wf (write_data m d x).1.
Proof.
  intros W. unfold write_data. pose proof (wf_mkdirs m [] d W eq_refl) as W1. fold (create_dir_all m d) in W1.
  destruct (fs_write (create_dir_all m d).1 (d ++ [corpus_name x]) x) as [m2|] eqn:E; simpl; [|exact W1].
  apply fs_write_some in E as (-> & P & K & N). apply wf_insert; [exact W1|exact P|exact N|right]. exact K.
Qed.

Lemma wf_below (m : fs) q b r : fs_wf m -> q <> [] -> m !! q = Some (File b) -> r <> [] -> m !! (q ++ r) = None.
Proof.
  intros W N F. induction r as [|c r IH] using rev_ind; [contradiction|]. intros _.
  destruct (m !! (q ++ r ++ [c])) as [n|] eqn:L; [|reflexivity]. exfalso. apply W in L. rewrite app_assoc, parent_snoc in L.
  assert (m !! (q ++ r) = Some Dir) as D.
  { unfold is_dir in L. destruct (q ++ r) as [|y l] eqn:E; [destruct q; [contradiction|discriminate]|].
    destruct (m !! (y :: l)) as [[]|]; try discriminate. reflexivity. }
  destruct r as [|z r]; [rewrite app_nil_r in D; congruence|]. rewrite IH in D by discriminate. discriminate.
Qed.

Lemma write_fails m d x :
  fs_wf m -> d <> [] ->
  (write_data m d x).2 = false <->
  (exists q b, q <> [] /\ under q d /\ m !! q = Some (File b)) \/ m !! (d ++ [corpus_name x]) = Some Dir.
Proof.
  intros W N. unfold write_data.
  assert (Fr : (create_dir_all m d).1 !! (d ++ [corpus_name x]) = m !! (d ++ [corpus_name x])).
  { apply create_dir_all_frame. destruct (is_prefix (d ++ [corpus_name x]) d) eqn:P; [|reflexivity]. exfalso.
    apply is_prefix_spec in P as (r & E). apply (f_equal (@List.length _)) in E. rewrite !app_length in E. simpl in E. lia. }
  destruct (create_dir_all m d).2 eqn:C.
  - pose proof (create_dir_all_dir m d C) as D.
    assert (NF : ~ exists q b, q <> [] /\ under q d /\ m !! q = Some (File b)).
    { intros (q & b & Nq & U & L). assert (false = true); [|discriminate]. rewrite <- C. symmetry. unfold create_dir_all. apply mkdirs_fails.
      exists q, b. split; [exact Nq|]. split; [now apply is_prefix_spec|exact L]. }
    unfold fs_write. rewrite parent_snoc, D. destruct (d ++ [corpus_name x]) as [|y l] eqn:E; [destruct d; discriminate|]. rewrite Fr.
    destruct (m !! (y :: l)) as [[b|]|] eqn:L; simpl; split; intros H; try discriminate; try (destruct H as [H|H]; [now elim NF|discriminate]); auto.
  - split; [intros _; left|intros _].
    + unfold create_dir_all in C. apply mkdirs_fails in C as (q & b & Nq & P & L). exists q, b. split; [exact Nq|]. split; [now apply is_prefix_spec|exact L].
    + unfold create_dir_all in C. pose proof C as C'. apply mkdirs_fails in C' as (q & b & Nq & P & L). apply is_prefix_spec in P as (r & ->).
      cbn [app] in L. pose proof (create_dir_all_keep m (q ++ r) q _ L) as L1. unfold fs_write. rewrite parent_snoc.
      assert (is_dir (create_dir_all m (q ++ r)).1 (q ++ r) = false) as ->; [|reflexivity].
      unfold is_dir. destruct (q ++ r) as [|y l] eqn:E; [destruct q; [contradiction|discriminate]|]. rewrite <- E in *.
      destruct r as [|z r]; [rewrite app_nil_r in *; now rewrite L1|].
      rewrite (wf_below _ q b (z :: r)); [reflexivity| |exact Nq|exact L1|discriminate]. exact (wf_mkdirs m [] _ W eq_refl).
Qed.

Definition kind_name (k : kind) : str :=
  match k with ImplGenericArgs => lit "impl_generic_args" | GenericArgs => lit "generic_args" | _ => lit "corpus" end.

Lemma first_fuzz (tn : str) :
  match str_find (lit "_fuzz__") tn with
  | Some n => exists pre post, n = List.length pre /\ tn = pre ++ lit "_fuzz__" ++ post /\ ~ occurs (lit "_fuzz__") (pre ++ lit "_fuzz_")
  | None => ~ occurs (lit "_fuzz__") tn
  end.
Proof.
  destruct (str_find (lit "_fuzz__") tn) as [n|] eqn:F; [|now apply str_find_none].
  apply str_find_some in F as [(pre & post & -> & <-) H]. exists pre, post. split; [reflexivity|]. split; [reflexivity|].
  intros (a & b & E). assert (L : List.length a < List.length pre).
  { apply (f_equal (@List.length _)) in E. rewrite !app_length in E. change (List.length (lit "_fuzz_")) with 6 in E.
    change (List.length (lit "_fuzz__")) with 7 in E. lia. }
  apply (H _ L). exists a, (b ++ lit "_" ++ post). split; [|reflexivity].
  transitivity ((pre ++ lit "_fuzz_") ++ lit "_" ++ post); [now rewrite <- app_assoc|]. rewrite E. now rewrite <- !app_assoc.
Qed.

Lemma first_fuzz_unique (pre pre' post post' : str) :
  pre ++ lit "_fuzz__" ++ post = pre' ++ lit "_fuzz__" ++ post' ->
  ~ occurs (lit "_fuzz__") (pre ++ lit "_fuzz_") -> ~ occurs (lit "_fuzz__") (pre' ++ lit "_fuzz_") -> pre = pre'.
Proof.
  assert (G : forall (p1 p2 q1 q2 : str), p1 ++ lit "_fuzz__" ++ q1 = p2 ++ lit "_fuzz__" ++ q2 ->
              ~ occurs (lit "_fuzz__") (p2 ++ lit "_fuzz_") -> List.length p2 <= List.length p1).
  { intros p1 p2 q1 q2 E N. destruct (le_lt_dec (List.length p2) (List.length p1)) as [L|L]; [exact L|]. exfalso. apply N.
    assert (P : exists r, p2 ++ lit "_fuzz_" = (p1 ++ lit "_fuzz__") ++ r).
    { assert (Q : p1 ++ lit "_fuzz__" = firstn (List.length (p1 ++ lit "_fuzz__")) (p2 ++ lit "_fuzz_")).
      { transitivity (firstn (List.length (p1 ++ lit "_fuzz__")) ((p1 ++ lit "_fuzz__") ++ q1)).
        { rewrite firstn_app, Nat.sub_diag, firstn_O, app_nil_r. symmetry. apply firstn_all. }
        rewrite <- app_assoc, E. change (lit "_fuzz__") with (lit "_fuzz_" ++ lit "_") at 2. rewrite <- (app_assoc (lit "_fuzz_")), (app_assoc p2).
        rewrite firstn_app. replace (List.length (p1 ++ lit "_fuzz__") - List.length (p2 ++ lit "_fuzz_")) with 0; [now rewrite firstn_O, app_nil_r|].
        rewrite !app_length. change (List.length (lit "_fuzz_")) with 6. change (List.length (lit "_fuzz__")) with 7. lia. }
      eexists. rewrite Q at 1. symmetry. apply firstn_skipn. }
    destruct P as (r & P). exists p1, r. now rewrite P, <- app_assoc. }
  intros E N N'. assert (L : List.length pre = List.length pre').
  { apply Nat.le_antisymm; [exact (G _ _ _ _ (eq_sym E) N)|exact (G _ _ _ _ E N')]. }
  apply (f_equal (firstn (List.length pre))) in E. rewrite firstn_app, Nat.sub_diag, firstn_O, app_nil_r, firstn_all in E.
  rewrite L, firstn_app, Nat.sub_diag, firstn_O, app_nil_r, firstn_all in E. exact E.
Qed.

Section Recording.
  Context {A V : Type}.
  Variable metadata : fs -> path -> option str -> option path.
  Variable bytes_of : instr -> A -> option bytes.
  Variable cfg_test : bool.
  Hypothesis stable : forall (m m' : fs) cwd mp, agree metadata m m' -> metadata m cwd mp = metadata m' cwd mp.

  Lemma goes_to_unique s kind tn d d' : goes_to metadata s kind tn d -> goes_to metadata s kind tn d' -> d = d'.
  Proof.
    intros (td & pre & post & T & E & N & ->) (td' & pre' & post' & T' & E' & N' & ->).
    assert (td' = td) as -> by congruence. rewrite E in E'. now rewrite (first_fuzz_unique _ _ _ _ E' N N').
  Qed.

  Lemma record_directory_spec s k tn :
    k <> Output ->
    match record_directory metadata s k tn with
    | Ret d => goes_to metadata s (kind_name k) tn d
    | Err _ => False
    | Panic => target_dir metadata s = None \/ ~ occurs (lit "_fuzz__") tn
    end.
  Proof.
    intros K. unfold record_directory. fold (target_dir metadata s). destruct (target_dir metadata s) as [td|] eqn:T; [|now left].
    unfold dir_from_args_type, path_from_args_type. pose proof (first_fuzz tn) as F.
    assert (Kd : kind_directory td (maybe_id (h_env s) None) k = Ret (td ++ [kind_name k ++ suffix s])).
    { unfold suffix. destruct k; [| | |contradiction]; unfold kind_directory, target_directory, path_segment, maybe_id, pjoin, bind; cbn [andb];
        destruct (var (h_env s) (lit "TEST_FUZZ_ID")); reflexivity. }
    rewrite Kd. cbn [bind]. destruct (str_find (lit "_fuzz__") tn) as [n|]; cbn [bind]; [|now right].
    destruct F as (pre & post & -> & -> & N). exists td, pre, post. split; [exact T|]. split; [reflexivity|]. split; [exact N|].
    unfold pjoin. rewrite firstn_app, Nat.sub_diag, firstn_O, app_nil_r, firstn_all, <- app_assoc. reflexivity.
  Qed.

  (** One datum. *)
  Definition item := (kind * str * option bytes)%type.
  Definition put (i : item) (s : host) : host * bool :=
    match record_directory metadata s i.1.1 i.1.2, i.2 with
    | Ret d, Some x => let (m, ok) := write_data (h_fs s) d x in (with_fs s m, ok)
    | _, _ => (s, false)
    end.
  Definition stuck (i : item) (s : host) : Prop :=
    target_dir metadata s = None \/ i.2 = None \/ ~ occurs (lit "_fuzz__") i.1.2 \/
    exists d, goes_to metadata s (kind_name i.1.1) i.1.2 d /\
      ((exists q b, q <> [] /\ under q d /\ h_fs s !! q = Some (File b)) \/
       (exists x, i.2 = Some x /\ h_fs s !! (d ++ [corpus_name x]) = Some Dir)).

  Lemma goes_to_nonempty s kind tn d : goes_to metadata s kind tn d -> d <> [].
  Proof. intros (td & pre & post & _ & _ & _ & ->). destruct td; discriminate. Qed.

  Lemma goes_to_ours s k tn d p :
    k <> Output -> goes_to metadata s (kind_name k) tn d -> under p d \/ under d p -> ours metadata p.
  Proof.
    intros K (td & pre & post & T & _ & _ & ->) U. exists (h_fs s), (h_cwd s), (var (h_env s) (lit "TEST_FUZZ_MANIFEST_PATH")), td.
    split; [exact T|].
    assert (I : In (kind_name k) [lit "impl_generic_args"; lit "generic_args"; lit "corpus"]).
    { destruct k; [left|right; left|right; right; left|contradiction]; reflexivity. }
    destruct U as [(r & E)|(r & ->)].
    - destruct (le_lt_dec (List.length p) (List.length td)) as [L|L].
      + left. exists (skipn (List.length p) td). apply (f_equal (firstn (List.length td))) in E.
        rewrite firstn_app, Nat.sub_diag, firstn_O, app_nil_r, firstn_all in E. rewrite E, firstn_app, (firstn_all2 p) by exact L.
        rewrite skipn_app, skipn_all, Nat.sub_diag. reflexivity.
      + right. exists (kind_name k), (suffix s). split; [exact I|].
        change [kind_name k ++ suffix s; pre] with ([kind_name k ++ suffix s] ++ [pre]) in E. rewrite app_assoc in E.
        exists (skipn (List.length (td ++ [kind_name k ++ suffix s])) p).
        assert (L' : List.length (td ++ [kind_name k ++ suffix s]) <= List.length p) by (rewrite app_length; cbn [List.length]; lia).
        apply (f_equal (firstn (List.length (td ++ [kind_name k ++ suffix s])))) in E.
        rewrite firstn_app, Nat.sub_diag, firstn_O, app_nil_r, firstn_all in E.
        rewrite firstn_app in E. replace (List.length (td ++ [kind_name k ++ suffix s]) - List.length p) with 0 in E by lia.
        rewrite firstn_O, app_nil_r in E. rewrite E at 1. symmetry. apply firstn_skipn.
    - right. exists (kind_name k), (suffix s). split; [exact I|]. exists (pre :: r). now rewrite <- !app_assoc.
  Qed.

  Lemma same_refl s : same metadata s s.
  Proof. repeat split. Qed.
  Lemma same_trans s1 s2 s3 : same metadata s1 s2 -> same metadata s2 s3 -> same metadata s1 s3.
  Proof.
    intros (C & E & F) (C' & E' & F'). split; [congruence|]. split; [congruence|]. intros p N. now rewrite (F p N), (F' p N).
  Qed.

  Lemma same_target s s' : same metadata s s' -> target_dir metadata s = target_dir metadata s'.
  Proof. intros (C & E & F). unfold target_dir. rewrite C, E. now apply stable. Qed.

  Lemma same_goes s s' kind tn d : same metadata s s' -> goes_to metadata s kind tn d -> goes_to metadata s' kind tn d.
  Proof.
    intros M (td & pre & post & T & H). exists td, pre, post. rewrite <- (same_target s s' M). split; [exact T|].
    destruct M as (_ & E & _). unfold suffix in *. now rewrite <- E.
  Qed.

  Lemma same_sym s s' : same metadata s s' -> same metadata s' s.
  Proof. intros (C & E & F). split; [congruence|]. split; [congruence|]. intros p N. symmetry. now apply F. Qed.

  Lemma put_spec i s :
    i.1.1 <> Output -> fs_wf (h_fs s) ->
    fs_wf (h_fs (put i s).1) /\ same metadata s (put i s).1 /\
    ((put i s).2 = false <-> stuck i s) /\
    ((put i s).2 = true -> exists d x, goes_to metadata s (kind_name i.1.1) i.1.2 d /\ i.2 = Some x /\
       (put i s).1 = with_fs s (write_data (h_fs s) d x).1 /\ h_fs (put i s).1 !! (d ++ [corpus_name x]) = Some (File x)).
  Proof.
    destruct i as [[k tn] data]. cbn [fst snd]. intros K W. unfold put, stuck. cbn [fst snd].
    pose proof (record_directory_spec s k tn K) as R.
    destruct (record_directory metadata s k tn) as [d|e|]; [|contradiction|].
    2:{ split; [exact W|]. split; [apply same_refl|]. split; [|discriminate]. split; [|reflexivity]. intros _. tauto. }
    destruct data as [x|].
    2:{ split; [exact W|]. split; [apply same_refl|]. split; [|discriminate]. split; [|reflexivity]. intros _. tauto. }
    pose proof (goes_to_nonempty _ _ _ _ R) as N. pose proof (write_fails (h_fs s) d x W N) as WF. pose proof (wf_write_data (h_fs s) d x W) as W1.
    pose proof (fun p n => write_data_lookup (h_fs s) d x p n) as L. pose proof (fun p n => write_data_keep (h_fs s) d x p n) as Kp.
    destruct (write_data (h_fs s) d x) as [m ok] eqn:E. cbn [fst snd] in *.
    split; [exact W1|]. split.
    { split; [reflexivity|]. split; [reflexivity|]. intros p NP. cbn [with_fs h_fs].
      assert (NU : ~ under p d /\ ~ under d p) by (split; intros U; apply NP; apply (goes_to_ours s k tn d p K R); auto).
      destruct NU as (N1 & N2).
      assert (Q : p <> d ++ [corpus_name x]) by (intros ->; apply N2; exists [corpus_name x]; reflexivity).
      destruct (h_fs s !! p) as [n|] eqn:E0; [symmetry; now apply Kp|].
      destruct (m !! p) as [n|] eqn:E1; [|reflexivity]. exfalso. apply L in E1 as [E1|[(-> & _ & P)|(-> & ->)]]; [congruence| |contradiction].
      apply N1. now apply is_prefix_spec. }
    split.
    { rewrite WF. split.
      - intros H. right; right; right. exists d. split; [exact R|]. destruct H as [H|H]; [now left|]. right. now exists x.
      - intros [H|[H|[H|(d' & G & H)]]]; [|discriminate| |].
        + destruct R as (td & pre & post & T & _). congruence.
        + destruct R as (td & pre & post & _ & -> & _). elim H. exists pre, post. reflexivity.
        + rewrite (goes_to_unique _ _ _ _ _ R G). destruct H as [H|(x' & [= <-] & H)]; [now left|now right]. }
    intros ->. exists d, x. split; [exact R|]. split; [reflexivity|]. split; [now rewrite E|]. cbn [with_fs h_fs].
    unfold write_data in E. destruct (fs_write (create_dir_all (h_fs s) d).1 (d ++ [corpus_name x]) x) as [m2|] eqn:F; [|discriminate].
    injection E as <-. apply fs_write_some in F as (-> & _). apply lookup_insert.
  Qed.

  Lemma goes_to_length s kind kind' tn tn' d d' :
    goes_to metadata s kind tn d -> goes_to metadata s kind' tn' d' -> List.length d = List.length d'.
  Proof.
    intros (td & pre & post & T & _ & _ & ->) (td' & pre' & post' & T' & _ & _ & ->). assert (td' = td) as -> by congruence.
    now rewrite !app_length.
  Qed.

  Lemma stuck_after i j s :
    i.1.1 <> Output -> fs_wf (h_fs s) -> (put i s).2 = true -> stuck j (put i s).1 <-> stuck j s.
  Proof.
    intros K W O. destruct (put_spec i s K W) as (_ & M & _ & H). destruct (H O) as (d & x & G & Ei & E & _). clear H.
    destruct (put_spec i s K W) as (_ & _ & St & _).
    assert (ND : h_fs s !! (d ++ [corpus_name x]) <> Some Dir).
    { intros D. assert (false = true); [|discriminate]. rewrite <- O. symmetry. apply St. right; right; right. exists d. split; [exact G|].
      right. exists x. auto. }
    assert (Fi : forall d' q, goes_to metadata s (kind_name j.1.1) j.1.2 d' -> under q d' -> forall b, h_fs (put i s).1 !! q = Some (File b) <-> h_fs s !! q = Some (File b)).
    { intros d' q G' (r & Er) b. pose proof (goes_to_length _ _ _ _ _ _ _ G G') as Le.
      assert (Q : q <> d ++ [corpus_name x]).
      { intros ->. apply (f_equal (@List.length _)) in Er. rewrite !app_length in Er. cbn [List.length] in Er. lia. }
      rewrite E. cbn [with_fs h_fs]. split; intros L.
      - apply write_data_lookup in L as [L|[(L & _)|(_ & L)]]; [exact L|discriminate|contradiction].
      - now apply write_data_keep. }
    assert (Di : forall d' y, goes_to metadata s (kind_name j.1.1) j.1.2 d' -> h_fs (put i s).1 !! (d' ++ [y]) = Some Dir <-> h_fs s !! (d' ++ [y]) = Some Dir).
    { intros d' y G'. pose proof (goes_to_length _ _ _ _ _ _ _ G G') as Le. rewrite E. cbn [with_fs h_fs]. split; intros L.
      - apply write_data_lookup in L as [L|[(_ & _ & P)|(L & _)]]; [exact L| |discriminate].
        apply is_prefix_spec in P as (r & Er). apply (f_equal (@List.length _)) in Er. rewrite !app_length in Er. cbn [List.length] in Er. lia.
      - apply write_data_keep; [exact L|]. intros Q. rewrite Q in L. contradiction. }
    unfold stuck. rewrite <- (same_target _ _ M). split; (intros [H|[H|[H|(d' & G' & H)]]]; [auto|auto|auto|]); right; right; right; exists d'.
    - pose proof (same_goes _ _ _ _ _ (same_sym _ _ M) G') as G0. split; [exact G0|].
      destruct H as [(q & b & N & U & L)|(y & Y & L)]; [left; exists q, b|right; exists y].
      + split; [exact N|]. split; [exact U|]. now apply (Fi d' q G0 U).
      + split; [exact Y|]. now apply (Di d' _ G0).
    - split; [exact (same_goes _ _ _ _ _ M G')|].
      destruct H as [(q & b & N & U & L)|(y & Y & L)]; [left; exists q, b|right; exists y].
      + split; [exact N|]. split; [exact U|]. now apply (Fi d' q G' U).
      + split; [exact Y|]. now apply (Di d' _ G').
  Qed.

  Fixpoint puts (l : list item) (s : host) : host * bool :=
    match l with
    | [] => (s, true)
    | i :: l' => let (s', ok) := put i s in if ok then puts l' s' else (s', false)
    end.

  Lemma puts_spec l s :
    List.Forall (fun i : item => i.1.1 <> Output) l -> fs_wf (h_fs s) ->
    fs_wf (h_fs (puts l s).1) /\ same metadata s (puts l s).1 /\
    ((puts l s).2 = false <-> exists i, In i l /\ stuck i s).
  Proof.
    revert s. induction l as [|i l IH]; intros s Fa W; cbn [puts].
    { split; [exact W|]. split; [apply same_refl|]. split; [discriminate|]. intros (i & [] & _). }
    inversion Fa as [|? ? K Fa']; subst. destruct (put_spec i s K W) as (W1 & M & St & _). pose proof (stuck_after i) as SA.
    destruct (put i s) as [s1 ok] eqn:E. cbn [fst snd] in *. destruct ok.
    - destruct (IH s1 Fa' W1) as (W2 & M2 & H). split; [exact W2|]. split; [exact (same_trans _ _ _ M M2)|].
      rewrite H. assert (Q : forall j, stuck j s1 <-> stuck j s).
      { intros j. specialize (SA j s K W). rewrite E in SA. exact (SA eq_refl). }
      split.
      + intros (j & I & J). exists j. split; [now right|]. now apply Q.
      + intros (j & [<-|I] & J); [apply St in J; discriminate|]. exists j. split; [exact I|]. now apply Q.
    - split; [exact W1|]. split; [exact M|]. split; [|reflexivity]. intros _. exists i. split; [now left|]. now apply St.
  Qed.

  Lemma puts_keep l s d x :
    List.Forall (fun i : item => i.1.1 <> Output) l -> fs_wf (h_fs s) ->
    h_fs s !! (d ++ [corpus_name x]) = Some (File x) ->
    (forall i d', In i l -> goes_to metadata s (kind_name i.1.1) i.1.2 d' -> d' <> d) ->
    h_fs (puts l s).1 !! (d ++ [corpus_name x]) = Some (File x).
  Proof.
    revert s. induction l as [|i l IH]; intros s Fa W L A'; cbn [puts]; [exact L|].
    inversion Fa as [|? ? K Fa']; subst. destruct (put_spec i s K W) as (W1 & M & _ & O).
    assert (L1 : h_fs (put i s).1 !! (d ++ [corpus_name x]) = Some (File x)).
    { unfold put. destruct (record_directory metadata s i.1.1 i.1.2) as [d'| |] eqn:R; [|exact L..].
      destruct i.2 as [y|]; [|exact L]. pose proof (record_directory_spec s i.1.1 i.1.2 K) as R'. rewrite R in R'.
      pose proof (write_data_keep (h_fs s) d' y _ _ L) as Kp. destruct (write_data (h_fs s) d' y) as [m ok]. cbn [fst with_fs h_fs] in *.
      apply Kp. intros Q. apply app_inj_tail in Q as [Q _]. now apply (A' i d' (or_introl eq_refl) R'). }
    destruct (put i s) as [s1 ok]. cbn [fst snd] in *. destruct ok; [|exact L1].
    apply IH; [exact Fa'|exact W1|exact L1|]. intros j d' I G. apply (A' j d' (or_intror I)). exact (same_goes _ _ _ _ _ (same_sym _ _ M) G).
  Qed.

  Lemma puts_present l s :
    List.Forall (fun i : item => i.1.1 <> Output) l -> fs_wf (h_fs s) ->
    List.NoDup (map (fun i : item => kind_name i.1.1) l) -> (puts l s).2 = true ->
    forall i d x, In i l -> goes_to metadata s (kind_name i.1.1) i.1.2 d -> i.2 = Some x ->
      h_fs (puts l s).1 !! (d ++ [corpus_name x]) = Some (File x).
  Proof.
    revert s. induction l as [|i l IH]; intros s Fa W ND O j d x I G Ex; cbn [puts] in *; [contradiction|].
    inversion Fa as [|? ? K Fa']; subst. inversion ND as [|? ? NI ND']; subst.
    destruct (put_spec i s K W) as (W1 & M & _ & H). destruct (put i s) as [s1 ok]. cbn [fst snd] in *. destruct ok; [|discriminate].
    destruct I as [<-|I].
    - destruct (H eq_refl) as (d' & x' & G' & Ex' & _ & L). rewrite (goes_to_unique _ _ _ _ _ G G'). assert (x' = x) as -> by congruence.
      apply puts_keep; [exact Fa'|exact W1|exact L|]. intros j' d'' I' G'' ->.
      pose proof (same_goes _ _ _ _ _ (same_sym _ _ M) G'') as G0. destruct G0 as (td & pre & post & T & _ & _ & Ed).
      destruct G' as (td' & pre' & post' & T' & _ & _ & Ed'). assert (td' = td) as -> by congruence. rewrite Ed in Ed'.
      apply app_inv_head in Ed'. injection Ed' as Ek _. apply app_inv_tail in Ek. apply NI. rewrite <- Ek. apply (in_map (fun i : item => kind_name i.1.1)). exact I'.
    - apply (IH s1 Fa' W1 ND' O j d x I); [|exact Ex]. exact (same_goes _ _ _ _ _ M G).
  Qed.

  Definition items (t : instr) (a : A) : list item :=
    (ImplGenericArgs, t_type_g t, Some (join (lit ", ") (t_impl_names t))) ::
    (GenericArgs, t_type_g t, Some (join (lit ", ") (t_names t))) ::
    (if f_only_generic_args (t_opts t) then [] else [(Corpus, t_type_a t, bytes_of t a)]).

  Lemma record_puts t a s :
    record_each (record_host metadata bytes_of t) (to_record (t_impl_names t) (t_names t) (t_opts t) a) s = puts (items t a) s.
  Proof.
    unfold to_record, items. cbn [record_each puts]. unfold record_host at 1. unfold put at 1. cbn [fst snd].
    destruct (match record_directory metadata s ImplGenericArgs (t_type_g t) with Ret d => _ | _ => _ end) as [s1 [|]]; [|reflexivity].
    unfold record_host at 1. unfold put at 1. cbn [fst snd].
    destruct (match record_directory metadata s1 GenericArgs (t_type_g t) with Ret d => _ | _ => _ end) as [s2 [|]]; [|reflexivity].
    destruct (f_only_generic_args (t_opts t)); reflexivity.
  Qed.

  Lemma items_records t a i :
    In i (items t a) <-> (i.1.1 <> Output /\ records bytes_of t a (kind_name i.1.1) i.1.2 i.2).
  Proof.
    unfold items. split.
    - intros [<-|[<-|I]]; [split; [discriminate|constructor]..|].
      destruct (f_only_generic_args (t_opts t)) eqn:O; [contradiction|]. destruct I as [<-|[]]. split; [discriminate|now constructor].
    - destruct i as [[k tn] data]. cbn [fst snd]. intros (K & R). inversion R as [E|E|O E]; subst; destruct k; try contradiction; try (exfalso; discriminate E).
      + now left.
      + right; now left.
      + rewrite O. right; right; now left.
  Qed.

  Lemma items_kinds t a : List.Forall (fun i : item => i.1.1 <> Output) (items t a) /\ List.NoDup (map (fun i : item => kind_name i.1.1) (items t a)).
  Proof.
    split; [apply List.Forall_forall; intros i I; now apply items_records in I as [K _]|].
    unfold items. destruct (f_only_generic_args (t_opts t)); cbn [map fst snd kind_name];
      repeat (constructor; [cbn [In]; intros H; repeat (destruct H as [H|H]; [discriminate H|]); contradiction H|]); constructor.
  Qed.

  Lemma stuck_impeded t a s : (exists i, In i (items t a) /\ stuck i s) <-> impeded metadata bytes_of t a s.
  Proof.
    unfold impeded, stuck. split.
    - intros ([[k tn] data] & I & H). apply items_records in I as (K & R). cbn [fst snd] in *.
      destruct H as [H|H]; [now left|]. right. exists (kind_name k), tn, data. auto.
    - intros [H|(kd & tn & data & R & H)].
      + exists (ImplGenericArgs, t_type_g t, Some (join (lit ", ") (t_impl_names t))). split; [now left|]. now left.
      + assert (exists k, k <> Output /\ kind_name k = kd) as (k & K & <-).
        { inversion R; [exists ImplGenericArgs|exists GenericArgs|exists Corpus]; split; (discriminate || reflexivity). }
        exists (k, tn, data). split; [apply items_records; auto|]. right. exact H.
  Qed.

  Lemma recording_spec t s : recording cfg_test (t_opts t) (h_env s) = true <-> recorded_now cfg_test t s.
  Proof.
    unfold recording, recorded_now. destruct cfg_test.
    - pose proof (enabled_spec (h_env s) []) as H. cbn [app] in H. rewrite app_nil_r in H. unfold test_fuzz_enabled.
      destruct (enabled (h_env s) []); cbn [negb]; split; intros Q.
      + discriminate.
      + elim Q. now apply H.
      + intros Q'. apply H in Q'. discriminate.
      + reflexivity.
    - pose proof (enabled_spec (h_env s) (lit "WRITE")) as H. rewrite andb_true_iff. unfold write_enabled. now rewrite H.
  Qed.

  Lemma call_recorded : forall (t : instr) (a : A) (body : prog A V) k (s : host),
    fs_wf (h_fs s) -> recorded_now cfg_test t s ->
    (impeded metadata bytes_of t a s ->
       exists s1, same metadata s s1 /\ run metadata bytes_of cfg_test (Call t a body k) s = run metadata bytes_of cfg_test (k None) s1) /\
    (~ impeded metadata bytes_of t a s ->
       exists s1, same metadata s s1 /\
         (forall kd tn data, records bytes_of t a kd tn data -> exists d x, data = Some x /\ goes_to metadata s kd tn d /\
            fs_read (h_fs s1) (d ++ [corpus_name x]) = Some x) /\
         run metadata bytes_of cfg_test (Call t a body k) s =
         run metadata bytes_of cfg_test (k (run metadata bytes_of cfg_test body s1).2) (run metadata bytes_of cfg_test body s1).1).
  Proof.
    intros t a body k s W R. apply recording_spec in R. destruct (items_kinds t a) as (Fa & ND).
    destruct (puts_spec (items t a) s Fa W) as (W1 & M & St). pose proof (puts_present (items t a) s Fa W ND) as Pr.
    cbn [run]. unfold instrumented. rewrite R, record_puts. rewrite stuck_impeded in St.
    destruct (puts (items t a) s) as [s1 ok]. cbn [fst snd] in *. split; intros H.
    - apply St in H as ->. exists s1. split; [exact M|reflexivity].
    - destruct ok; [|elim H; now apply St]. exists s1. split; [exact M|]. split.
      + intros kd tn data Rc. assert (exists k, k <> Output /\ kind_name k = kd) as (kk & K & <-).
        { inversion Rc; [exists ImplGenericArgs|exists GenericArgs|exists Corpus]; split; (discriminate || reflexivity). }
        assert (I : In (kk, tn, data) (items t a)) by (apply items_records; auto).
        assert (NS : ~ stuck (kk, tn, data) s) by (intros Q; apply H, stuck_impeded; eauto).
        unfold stuck in NS. cbn [fst snd] in NS. destruct data as [x|]; [|elim NS; auto].
        pose proof (record_directory_spec s kk tn K) as RD. destruct (record_directory metadata s kk tn) as [d| |]; [|contradiction|elim NS; tauto].
        exists d, x. split; [reflexivity|]. split; [exact RD|]. unfold fs_read. now rewrite (Pr eq_refl _ d x I RD eq_refl).
      + now destruct (run metadata bytes_of cfg_test body s1).
  Qed.

  Lemma run_wf (p : prog A V) s : tidy p -> fs_wf (h_fs s) -> fs_wf (h_fs (run metadata bytes_of cfg_test p s).1).
  Proof.
    intros T. revert s. induction T as [v| |f k F T IH|t a body k T IHb T' IHk]; intros s W; cbn [run]; [exact W|exact W|apply IH, F, W|].
    unfold instrumented. rewrite record_puts. destruct (recording cfg_test (t_opts t) (h_env s)).
    - destruct (items_kinds t a) as (Fa & _). destruct (puts_spec (items t a) s Fa W) as (W1 & _).
      destruct (puts (items t a) s) as [s1 []]; cbn [fst] in *; [|apply IHk, W1].
      pose proof (IHb s1 W1) as W2. destruct (run metadata bytes_of cfg_test body s1) as [s2 r]. apply IHk, W2.
    - pose proof (IHb s W) as W2. destruct (run metadata bytes_of cfg_test body s) as [s2 r]. apply IHk, W2.
  Qed.

  Lemma run_transparent : forall (p : prog A V) (s s' : host),
    blind metadata p -> tidy p -> fs_wf (h_fs s') -> same metadata s s' ->
    (forall s0 t a, In (s0, t, a) (attempts metadata bytes_of cfg_test p s') -> ~ impeded metadata bytes_of t a s0) ->
    (run metadata bytes_of cfg_test p s').2 = (plain p s).2 /\
    same metadata (plain p s).1 (run metadata bytes_of cfg_test p s').1.
  Proof.
    intros p s s' B. revert s s'. induction B as [v| |f k F B IH|t a body k B IHb B' IHk]; intros s s' T W M NI; cbn [run plain attempts] in *.
    - split; [reflexivity|exact M].
    - split; [reflexivity|exact M].
    - inversion T; subst. destruct (F s s' M) as (M' & ->). apply IH; auto.
    - inversion T; subst. unfold instrumented in *. rewrite record_puts in *.
      destruct (recording cfg_test (t_opts t) (h_env s')).
      + destruct (items_kinds t a) as (Fa & _). destruct (puts_spec (items t a) s' Fa W) as (W1 & M1 & St). rewrite stuck_impeded in St.
        destruct (puts (items t a) s') as [s1 ok]. cbn [fst snd] in *. destruct ok.
        * destruct (IHb s s1) as (E & M2); [assumption|assumption|exact (same_trans _ _ _ M M1)| |].
          { intros s0 t0 a0 I. apply NI. apply in_or_app. left. now right. }
          pose proof (run_wf body s1 ltac:(assumption) W1) as W2. destruct (run metadata bytes_of cfg_test body s1) as [s2 r].
          destruct (plain body s) as [s2' r']. cbn [fst snd] in *. subst r'.
          apply IHk; [auto|exact W2|exact M2|]. intros s0 t0 a0 I. apply NI. apply in_or_app. now right.
        * exfalso. apply (NI s' t a); [now left|]. now apply St.
      + destruct (IHb s s') as (E & M2); [assumption|assumption|exact M| |].
        { intros s0 t0 a0 I. apply NI. apply in_or_app. now left. }
        pose proof (run_wf body s' ltac:(assumption) W) as W2. destruct (run metadata bytes_of cfg_test body s') as [s2 r].
        destruct (plain body s) as [s2' r']. cbn [fst snd] in *. subst r'.
        apply IHk; [auto|exact W2|exact M2|]. intros s0 t0 a0 I. apply NI. apply in_or_app. now right.
  Qed.
End Recording.

(** C106: a call that is to be recorded enters the body of the function, with everything
    recorded, if nothing impedes recording, and panics before the body otherwise; in both
    cases nothing but the places for recordings has changed. *)
Theorem C106_call :
  forall (A V : Type) metadata bytes_of cfg_test (t : instr) (a : A) (body : prog A V) (k : option V -> prog A V) (s : host),
    (forall (m m' : fs) cwd mp, agree metadata m m' -> metadata m cwd mp = metadata m' cwd mp) ->
    fs_wf (h_fs s) -> recorded_now cfg_test t s ->
    (impeded metadata bytes_of t a s ->
       exists s1, same metadata s s1 /\ run metadata bytes_of cfg_test (Call t a body k) s = run metadata bytes_of cfg_test (k None) s1) /\
    (~ impeded metadata bytes_of t a s ->
       exists s1, same metadata s s1 /\
         (forall kd tn data, records bytes_of t a kd tn data -> exists d x, data = Some x /\ goes_to metadata s kd tn d /\
            fs_read (h_fs s1) (d ++ [corpus_name x]) = Some x) /\
         run metadata bytes_of cfg_test (Call t a body k) s =
         run metadata bytes_of cfg_test (k (run metadata bytes_of cfg_test body s1).2) (run metadata bytes_of cfg_test body s1).1).
Proof. intros A V md b c t a body k s St. exact (call_recorded md b c St t a body k s). Qed.
Print Assumptions C106_call.

(** C106: a program that does not look at the places for recordings does, when its
    functions are instrumented, what it does without the attribute, if nothing impedes any
    of the recordings. *)
Theorem C106_transparent :
  forall (A V : Type) metadata bytes_of cfg_test (p : prog A V) (s s' : host),
    (forall (m m' : fs) cwd mp, agree metadata m m' -> metadata m cwd mp = metadata m' cwd mp) ->
    blind metadata p -> tidy p -> fs_wf (h_fs s') -> same metadata s s' ->
    (forall s0 t a, In (s0, t, a) (attempts metadata bytes_of cfg_test p s') -> ~ impeded metadata bytes_of t a s0) ->
    (run metadata bytes_of cfg_test p s').2 = (plain p s).2 /\
    same metadata (plain p s).1 (run metadata bytes_of cfg_test p s').1.
Proof. intros A V md b c p s s' St. exact (run_transparent md b c St p s s'). Qed.
Print Assumptions C106_transparent.

(** C106: recordings are attempted only by calls that are to be recorded; a program that
    attempts none is exactly the original, whatever it looks at. *)
Theorem C106_attempts :
  forall (A V : Type) metadata bytes_of cfg_test (p : prog A V) (s : host),
    (forall s0 t a, In (s0, t, a) (attempts metadata bytes_of cfg_test p s) -> recorded_now cfg_test t s0) /\
    (attempts metadata bytes_of cfg_test p s = [] -> run metadata bytes_of cfg_test p s = plain p s).
Proof.
  intros A V md b c p. induction p as [v| |f k IH|t a body IHb k IHk]; intros s; cbn [attempts run plain].
  - split; [contradiction|reflexivity].
  - split; [contradiction|reflexivity].
  - apply IH.
  - split.
    + intros s0 t0 a0 I. apply in_app_or in I as [I|I].
      * destruct (recording c (t_opts t) (h_env s)) eqn:R; [|now apply IHb in I].
        destruct (record_each _ _ s) as [s1 ok]. destruct I as [I|I]; [injection I as <- <- <-; now apply recording_spec|].
        destruct ok; [now apply IHb in I|contradiction].
      * destruct (instrumented _ _ _ _ c _ _ a s) as [s1 r]. now apply IHk in I.
    + unfold instrumented. destruct (recording c (t_opts t) (h_env s)).
      * destruct (record_each _ _ s) as [s1 ok]. intros E. discriminate E.
      * intros E. apply app_eq_nil in E as (E1 & E2). destruct (IHb s) as (_ & H). rewrite (H E1) in *.
        destruct (plain body s) as [s1 r]. now apply IHk.
Qed.
Print Assumptions C106_attempts.

(** The program does not change its environment. *)
Inductive steady {A V : Type} : prog A V -> Prop :=
  | e_return v : steady (Return v)
  | e_unwind : steady Unwind
  | e_step f k : (forall s, h_env (f s) = h_env s) -> (forall s, steady (k s)) -> steady (Step f k)
  | e_call t a body k : steady body -> (forall r, steady (k r)) -> steady (Call t a body k).

(** C106: in particular while fuzzing or replaying (test build, TEST_FUZZ on), or in other
    builds without TEST_FUZZ_WRITE, all calls, also nested ones, are of the original. *)
Theorem C106_inert :
  forall (A V : Type) metadata bytes_of cfg_test (p : prog A V) (s : host),
    steady p ->
    (if (cfg_test : bool) then switched_on (h_env s) (lit "TEST_FUZZ") else ~ switched_on (h_env s) (lit "TEST_FUZZ_WRITE")) ->
    run metadata bytes_of cfg_test p s = plain p s.
Proof.
  intros A V md b c p s E H. apply C106_attempts.
  assert (G : forall (p : prog A V) (s : host), steady p ->
     (if c then switched_on (h_env s) (lit "TEST_FUZZ") else ~ switched_on (h_env s) (lit "TEST_FUZZ_WRITE")) ->
     attempts md b c p s = [] /\ h_env (run md b c p s).1 = h_env s); [|apply (G p s E H)].
  clear p s E H. intros p s E. revert s. induction E as [v| |f k F E IH|t a body k E IHb E' IHk]; intros s H; cbn [attempts run].
  - split; reflexivity.
  - split; reflexivity.
  - destruct (IH s (f s)) as (I1 & I2); [now rewrite F|]. rewrite I2, F. auto.
  - assert (recording c (t_opts t) (h_env s) = false) as R.
    { destruct (recording c (t_opts t) (h_env s)) eqn:R; [|reflexivity]. exfalso. apply recording_spec in R. unfold recorded_now in R.
      destruct c; [contradiction|]. destruct R as (_ & R). contradiction. }
    unfold instrumented. rewrite R. destruct (IHb s H) as (I1 & I2). rewrite I1. destruct (run md b c body s) as [s1 r]. cbn [fst app] in *.
    destruct (IHk r s1) as (J1 & J2); [now rewrite I2|]. rewrite J1, J2. auto.
Qed.
Print Assumptions C106_inert.

(** * Examples *)

(** Cargo for an example: packages /a and /b, each with a directory target; nothing
    elsewhere. *)
Definition ex_metadata (m : fs) (cwd : path) (mp : option str) : option path :=
  match mp with
  | Some _ => Some [lit "a"; lit "target"]
  | None => match cwd with
            | [x] => if str_dec x (lit "a") then Some [lit "a"; lit "target"]
                     else if str_dec x (lit "b") then Some [lit "b"; lit "target"] else None
            | _ => None
            end
  end.

Definition ex_instr : instr :=
  {| t_impl_names := []; t_names := [lit "u8"]; t_type_g := lit "c::f_fuzz__::Args<u8>"; t_type_a := lit "c::f_fuzz__::write_args::Args<u8>";
     t_opts := {| f_only_generic_args := false; f_enable_in_production := false |} |}.

(** Calls the function with 1, moves, calls it again with 2, and returns the sum of the results. *)
Definition ex_moving (to : path) : prog nat nat :=
  Call ex_instr 1 (Return 10) (fun r1 =>
    Step (fun s => {| h_fs := h_fs s; h_cwd := to; h_env := h_env s |}) (fun _ =>
      Call ex_instr 2 (Return 20) (fun r2 =>
        match r1, r2 with Some x, Some y => Return (x + y) | _, _ => Unwind end))).

Definition ex_host (mp : option bytes) : host :=
  {| h_fs := ∅; h_cwd := [lit "a"]; h_env := env_set (fun _ => None) (lit "TEST_FUZZ_MANIFEST_PATH") mp |}.
Definition ex_bytes (_ : instr) (a : nat) : option bytes := Some [Ascii.ascii_of_nat a].

Transparent sha1 corpus_name.

(** C106: the file of the second recording goes to the package that the program has moved
    to; if there is none the program panics, which it does not without the attribute; and
    nothing of this happens if TEST_FUZZ_MANIFEST_PATH is set. *)
Example C106_example :
  let moved := run ex_metadata ex_bytes true (ex_moving [lit "b"]) (ex_host None) in
  let lost := run ex_metadata ex_bytes true (ex_moving [lit "tmp"]) (ex_host None) in
  let told := run ex_metadata ex_bytes true (ex_moving [lit "tmp"]) (ex_host (Some (lit "/a/Cargo.toml"))) in
  moved.2 = Some 30 /\
  fs_read (h_fs moved.1) [lit "a"; lit "target"; lit "corpus"; lit "c::f"; corpus_name ["001"%char]] = Some ["001"%char] /\
  fs_read (h_fs moved.1) [lit "a"; lit "target"; lit "corpus"; lit "c::f"; corpus_name ["002"%char]] = None /\
  fs_read (h_fs moved.1) [lit "b"; lit "target"; lit "corpus"; lit "c::f"; corpus_name ["002"%char]] = Some ["002"%char] /\
  lost.2 = None /\ (plain (ex_moving [lit "tmp"]) (ex_host None)).2 = Some 30 /\
  told.2 = Some 30 /\
  fs_read (h_fs told.1) [lit "a"; lit "target"; lit "corpus"; lit "c::f"; corpus_name ["002"%char]] = Some ["002"%char].
Proof. vm_compute. repeat split. Qed.

(** The program of the example is one that C106 speaks about. *)
Example C106_example_blind : forall to, blind ex_metadata (ex_moving to) /\ tidy (ex_moving to) /\ steady (ex_moving to).
Proof.
  intros to. split; [|split]; (constructor; [constructor|]); intros r1; (constructor; [|intros _; constructor; [constructor|]; intros r2; destruct r1, r2; constructor]).
  - intros s s' (C & E & F). split; [|reflexivity]. split; [reflexivity|]. split; [exact E|exact F].
  - intros s W. exact W.
  - intros s. reflexivity.
Qed.
