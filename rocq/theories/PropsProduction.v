(** C118: what a program that hosts recordings leaves behind when it ends. *)
From Coq Require Import List Ascii String Bool Arith Lia.
From stdpp Require Import gmap strings.
From Verif Require Import Base Utf8 Env Dirs Sha1 Fs Write Harness PropsHarness Host PropsHost TestHelpers Production.
Import ListNotations.
Local Open Scope nat_scope.
Opaque sha1 corpus_name.

(** * Specification *)

Section Spec.
  Context {A V : Type}.
  Variable metadata : fs -> path -> option str -> option path.
  Variable bytes_of : instr -> A -> option bytes.

  (** What the program does of its own leaves the places for recordings alone. *)
  Inductive hands_off : prog A V -> Prop :=
    | o_return v : hands_off (Return v)
    | o_unwind : hands_off Unwind
    | o_step f k : (forall s p, ours metadata p -> h_fs (f s) !! p = h_fs s !! p) -> (forall s, hands_off (k s)) -> hands_off (Step f k)
    | o_call t a body k : hands_off body -> (forall r, hands_off (k r)) -> hands_off (Call t a body k).

  (** One of the attempts is to record the datum in the directory. *)
  Definition meant (l : list (host * instr * A)) (d : path) (x : bytes) : Prop :=
    exists s t a kd tn, In (s, t, a) l /\ records bytes_of t a kd tn (Some x) /\ goes_to metadata s kd tn d.
End Spec.

(** * Proofs *)

Section Proofs.
  Context {A V : Type}.
  Variable metadata : fs -> path -> option str -> option path.
  Variable bytes_of : instr -> A -> option bytes.
  Variable cfg_test : bool.
  Hypothesis stable : forall (m m' : fs) cwd mp, agree metadata m m' -> metadata m cwd mp = metadata m' cwd mp.

  Definition grown (P : path -> bytes -> Prop) (m m' : fs) : Prop :=
    forall q, ours metadata q ->
      m' !! q = m !! q \/
      (m !! q = None /\ m' !! q = Some Dir /\ exists d x, P d x /\ under q d) \/
      (exists d x, P d x /\ q = d ++ [corpus_name x] /\ m' !! q = Some (File x)).

  Lemma grown_refl P m : grown P m m.
  Proof. intros q _. now left. Qed.

  Lemma grown_weaken (P Q : path -> bytes -> Prop) m m' : (forall d x, P d x -> Q d x) -> grown P m m' -> grown Q m m'.
  Proof.
    intros I G q O. destruct (G q O) as [E|[(E & E' & d & x & H & U)|(d & x & H & E & E')]]; [now left| |].
    - right; left. split; [exact E|]. split; [exact E'|]. exists d, x. auto.
    - right; right. exists d, x. auto.
  Qed.

  Lemma grown_trans P m1 m2 m3 : grown P m1 m2 -> grown P m2 m3 -> grown P m1 m3.
  Proof.
    intros G1 G2 q O. destruct (G2 q O) as [E2|[(E2 & F2 & d & x & H & U)|C]]; [| |right; right; exact C].
    - rewrite E2. exact (G1 q O).
    - destruct (G1 q O) as [E1|[(_ & F1 & _)|(d' & x' & _ & _ & F1)]]; [|congruence..].
      right; left. split; [congruence|]. split; [exact F2|]. exists d, x. auto.
  Qed.

  Lemma grown_write (P : path -> bytes -> Prop) m d x : P d x -> grown P m (write_data m d x).1.
  Proof.
    intros H q _. destruct ((write_data m d x).1 !! q) as [n|] eqn:E.
    - destruct (write_data_lookup _ _ _ _ _ E) as [L|[(-> & _ & L)|(-> & L)]].
      + left. congruence.
      + destruct (m !! q) as [n'|] eqn:E0.
        * destruct (decide (q = d ++ [corpus_name x])) as [Q|Q].
          { exfalso. apply is_prefix_spec in L as (r & L). rewrite Q in L. apply (f_equal (@List.length _)) in L.
            rewrite !app_length in L. cbn [List.length] in L. lia. }
          left. rewrite (write_data_keep _ _ x _ _ E0 Q) in E. congruence.
        * right; left. split; [reflexivity|]. split; [reflexivity|]. exists d, x. split; [exact H|]. now apply is_prefix_spec.
      + right; right. exists d, x. auto.
    - left. destruct (m !! q) as [n'|] eqn:E0; [|reflexivity]. destruct (decide (q = d ++ [corpus_name x])) as [Q|Q].
      + exfalso. subst q. unfold write_data in E.
        destruct (fs_write (create_dir_all m d).1 (d ++ [corpus_name x]) x) as [m2|] eqn:F; cbn [fst] in E.
        * apply fs_write_some in F as (-> & _). rewrite lookup_insert in E. discriminate.
        * rewrite (create_dir_all_keep m d _ _ E0) in E. discriminate.
      + rewrite (write_data_keep _ _ x _ _ E0 Q) in E. discriminate.
  Qed.

  Lemma grown_put (i : item) s :
    i.1.1 <> Output ->
    grown (fun d x => goes_to metadata s (kind_name i.1.1) i.1.2 d /\ i.2 = Some x) (h_fs s) (h_fs (put metadata i s).1).
  Proof.
    intros K. unfold put. pose proof (record_directory_spec metadata s i.1.1 i.1.2 K) as R.
    destruct (record_directory metadata s i.1.1 i.1.2) as [d| |]; [|apply grown_refl..].
    destruct i.2 as [x|]; [|apply grown_refl].
    pose proof (grown_write (fun d x' => goes_to metadata s (kind_name i.1.1) i.1.2 d /\ Some x = Some x') (h_fs s) d x (conj R eq_refl)) as G.
    destruct (write_data (h_fs s) d x) as [m ok]. exact G.
  Qed.

  Lemma grown_puts (l : list item) s :
    List.Forall (fun i : item => i.1.1 <> Output) l -> fs_wf (h_fs s) ->
    grown (fun d x => exists i, In i l /\ goes_to metadata s (kind_name i.1.1) i.1.2 d /\ i.2 = Some x) (h_fs s) (h_fs (puts metadata l s).1).
  Proof.
    revert s. induction l as [|i l IH]; intros s Fa W; cbn [puts]; [apply grown_refl|].
    inversion Fa as [|? ? K Fa']; subst. destruct (put_spec metadata i s K W) as (W1 & M & _).
    pose proof (grown_put i s K) as G. destruct (put metadata i s) as [s1 ok]. cbn [fst snd] in *.
    assert (G' : grown (fun d x => exists i0, In i0 (i :: l) /\ goes_to metadata s (kind_name i0.1.1) i0.1.2 d /\ i0.2 = Some x) (h_fs s) (h_fs s1)).
    { eapply grown_weaken; [|exact G]. intros d x (H & H'). exists i. split; [now left|auto]. }
    destruct ok; [|exact G']. eapply grown_trans; [exact G'|]. eapply grown_weaken; [|exact (IH s1 Fa' W1)].
    intros d x (j & I & H & H'). exists j. split; [now right|]. split; [|exact H'].
    exact (same_goes metadata stable _ _ _ _ _ (same_sym metadata _ _ M) H).
  Qed.

  Lemma items_meant s t a d x i l :
    In i (items bytes_of t a) -> goes_to metadata s (kind_name i.1.1) i.1.2 d -> i.2 = Some x -> In (s, t, a) l ->
    meant metadata bytes_of l d x.
  Proof.
    intros I G E L. apply items_records in I as (_ & R). rewrite E in R. exists s, t, a, (kind_name i.1.1), i.1.2. auto.
  Qed.

  Lemma meant_incl l l' d x : (forall e, In e l -> In e l') -> meant metadata bytes_of l d x -> meant metadata bytes_of l' d x.
  Proof. intros I (s & t & a & kd & tn & H & H'). exists s, t, a, kd, tn. auto. Qed.

  (** Everything of the attempt is there. *)
  Definition there (m : fs) (e : host * instr * A) : Prop :=
    forall kd tn data, records bytes_of e.1.2 e.2 kd tn data ->
      exists d x y, data = Some x /\ goes_to metadata e.1.1 kd tn d /\ m !! (d ++ [corpus_name x]) = Some (File y) /\ corpus_name y = corpus_name x.

  Lemma records_kind (t : instr) (a : A) kd tn data : records bytes_of t a kd tn data -> exists k, k <> Output /\ kind_name k = kd.
  Proof. intros R. inversion R; [exists ImplGenericArgs|exists GenericArgs|exists Corpus]; split; (discriminate || reflexivity). Qed.

  Lemma there_grown P m m' e : grown P m m' -> there m e -> there m' e.
  Proof.
    intros G H kd tn data R. destruct (H kd tn data R) as (d & x & y & E & Gt & L & N). exists d, x.
    destruct (records_kind _ _ _ _ _ R) as (k & K & <-).
    assert (O : ours metadata (d ++ [corpus_name x])).
    { apply (goes_to_ours metadata e.1.1 k tn d _ K Gt). right. exists [corpus_name x]. reflexivity. }
    destruct (G _ O) as [Q|[(Q & _)|(d' & x' & _ & Q & F)]].
    - exists y. rewrite Q. auto.
    - congruence.
    - exists x'. apply app_inj_tail in Q as (_ & Q). auto.
  Qed.

  Lemma run_grown (p : prog A V) s :
    hands_off metadata p -> tidy p -> fs_wf (h_fs s) ->
    grown (meant metadata bytes_of (attempts metadata bytes_of cfg_test p s)) (h_fs s) (h_fs (run metadata bytes_of cfg_test p s).1) /\
    forall e, In e (attempts metadata bytes_of cfg_test p s) -> ~ impeded metadata bytes_of e.1.2 e.2 e.1.1 ->
      there (h_fs (run metadata bytes_of cfg_test p s).1) e.
  Proof.
    intros H. revert s. induction H as [v| |f k F H IH|t a body k H IHb H' IHk]; intros s T W; cbn [run attempts].
    - split; [apply grown_refl|contradiction].
    - split; [apply grown_refl|contradiction].
    - inversion T; subst. destruct (IH s (f s)) as (G & Th); [auto|auto|]. split; [|exact Th].
      eapply grown_trans; [|exact G]. intros q O. left. now apply F.
    - inversion T; subst. unfold instrumented. rewrite record_puts.
      destruct (recording cfg_test (t_opts t) (h_env s)).
      + destruct (items_kinds bytes_of t a) as (Fa & ND). destruct (puts_spec metadata stable (items bytes_of t a) s Fa W) as (W1 & M & St).
        pose proof (puts_present metadata stable (items bytes_of t a) s Fa W ND) as Pr. pose proof (grown_puts (items bytes_of t a) s Fa W) as G0.
        rewrite stuck_impeded in St. destruct (puts metadata (items bytes_of t a) s) as [s1 ok]. cbn [fst snd] in *.
        destruct ok.
        * pose proof (run_wf metadata bytes_of cfg_test stable body s1 ltac:(assumption) W1) as W2.
          destruct (IHb s1) as (G1 & T1); [assumption|exact W1|]. destruct (run metadata bytes_of cfg_test body s1) as [s2 r]. cbn [fst] in *.
          destruct (IHk r s2) as (G2 & T2); [auto|exact W2|]. destruct (run metadata bytes_of cfg_test (k r) s2) as [s3 r3]. cbn [fst] in *.
          split.
          { eapply grown_trans; [|eapply grown_trans].
            - eapply grown_weaken; [|exact G0]. intros d x (i & I & Gt & E). apply (items_meant s t a d x i); auto. apply in_or_app. left; now left.
            - eapply grown_weaken; [|exact G1]. intros d x. apply meant_incl. intros e I. apply in_or_app. left; now right.
            - eapply grown_weaken; [|exact G2]. intros d x. apply meant_incl. intros e I. apply in_or_app. now right. }
          intros e I N. apply in_app_or in I as [[<-|I]|I]; [|exact (there_grown _ _ _ _ G2 (T1 e I N))|exact (T2 e I N)].
          apply (there_grown _ _ _ _ G2), (there_grown _ _ _ _ G1). intros kd tn data R. cbn [fst snd] in *.
          destruct (records_kind _ _ _ _ _ R) as (kk & K & <-).
          assert (I : In (kk, tn, data) (items bytes_of t a)) by (apply items_records; auto).
          assert (NS : ~ stuck metadata (kk, tn, data) s) by (intros Q; apply N, stuck_impeded; eauto).
          unfold stuck in NS. cbn [fst snd] in NS. destruct data as [x|]; [|elim NS; auto].
          pose proof (record_directory_spec metadata s kk tn K) as RD.
          destruct (record_directory metadata s kk tn) as [d| |]; [|contradiction|elim NS; tauto].
          exists d, x, x. split; [reflexivity|]. split; [exact RD|]. split; [|reflexivity]. exact (Pr eq_refl _ d x I RD eq_refl).
        * destruct (IHk None s1) as (G2 & T2); [auto|exact W1|]. destruct (run metadata bytes_of cfg_test (k None) s1) as [s3 r3]. cbn [fst] in *.
          split.
          { eapply grown_trans.
            - eapply grown_weaken; [|exact G0]. intros d x (i & I & Gt & E). apply (items_meant s t a d x i); auto. apply in_or_app. left; now left.
            - eapply grown_weaken; [|exact G2]. intros d x. apply meant_incl. intros e I. apply in_or_app. now right. }
          intros e I N. apply in_app_or in I as [[<-|[]]|I]; [|exact (T2 e I N)]. elim N. cbn [fst snd]. now apply St.
      + pose proof (run_wf metadata bytes_of cfg_test stable body s ltac:(assumption) W) as W2.
        destruct (IHb s) as (G1 & T1); [assumption|exact W|]. destruct (run metadata bytes_of cfg_test body s) as [s2 r]. cbn [fst] in *.
        destruct (IHk r s2) as (G2 & T2); [auto|exact W2|]. destruct (run metadata bytes_of cfg_test (k r) s2) as [s3 r3]. cbn [fst] in *.
        split.
        { eapply grown_trans.
          - eapply grown_weaken; [|exact G1]. intros d x. apply meant_incl. intros e I. apply in_or_app. now left.
          - eapply grown_weaken; [|exact G2]. intros d x. apply meant_incl. intros e I. apply in_or_app. now right. }
        intros e I N. apply in_app_or in I as [I|I]; [exact (there_grown _ _ _ _ G2 (T1 e I N))|exact (T2 e I N)].
  Qed.
End Proofs.

(** C118: when a program ends that leaves the places for recordings to the recording, each
    call that is recorded without impediment has left all its data there, whatever else was
    recorded, by it or by others, before or after, and however the program ended. *)
Theorem C118_kept :
  forall (A V : Type) metadata bytes_of cfg_test (p : prog A V) (s : host) s0 t a kd tn data,
    (forall (m m' : fs) cwd mp, agree metadata m m' -> metadata m cwd mp = metadata m' cwd mp) ->
    hands_off metadata p -> tidy p -> fs_wf (h_fs s) ->
    In (s0, t, a) (attempts metadata bytes_of cfg_test p s) -> ~ impeded metadata bytes_of t a s0 -> records bytes_of t a kd tn data ->
    exists d x y, data = Some x /\ goes_to metadata s0 kd tn d /\
      fs_read (h_fs (run metadata bytes_of cfg_test p s).1) (d ++ [corpus_name x]) = Some y /\ sha1 y = sha1 x.
Proof.
  intros A V md b c p s s0 t a kd tn data St H T W I N R. destruct (run_grown md b c St p s H T W) as (_ & Th).
  destruct (Th _ I N kd tn data R) as (d & x & y & E & G & L & Q). exists d, x, y. split; [exact E|]. split; [exact G|].
  split; [unfold fs_read; now rewrite L|now apply corpus_name_inj].
Qed.
Print Assumptions C118_kept.

(** C118: and nothing else changes there: each place is as it was before the program started,
    or is a new directory on the way to a recording, or the file of a recording. *)
Theorem C118_only :
  forall (A V : Type) metadata bytes_of cfg_test (p : prog A V) (s : host) q,
    (forall (m m' : fs) cwd mp, agree metadata m m' -> metadata m cwd mp = metadata m' cwd mp) ->
    hands_off metadata p -> tidy p -> fs_wf (h_fs s) -> ours metadata q ->
    let before := h_fs s !! q in
    let after := h_fs (run metadata bytes_of cfg_test p s).1 !! q in
    let meant := meant metadata bytes_of (attempts metadata bytes_of cfg_test p s) in
    after = before \/
    (before = None /\ after = Some Dir /\ exists d x, meant d x /\ under q d) \/
    (exists d x, meant d x /\ q = d ++ [corpus_name x] /\ after = Some (File x)).
Proof. intros A V md b c p s q St H T W O. destruct (run_grown md b c St p s H T W) as (G & _). exact (G q O). Qed.
Print Assumptions C118_only.

Section Count.
  Context {A V : Type}.
  Variable metadata : fs -> path -> option str -> option path.
  Variable bytes_of : instr -> A -> option bytes.
  Variable cfg_test : bool.
  Hypothesis stable : forall (m m' : fs) cwd mp, agree metadata m m' -> metadata m cwd mp = metadata m' cwd mp.

  Lemma attempts_env (p : prog A V) s :
    steady p -> tidy p -> fs_wf (h_fs s) ->
    h_env (run metadata bytes_of cfg_test p s).1 = h_env s /\
    forall e, In e (attempts metadata bytes_of cfg_test p s) -> h_env e.1.1 = h_env s.
  Proof.
    intros H. revert s. induction H as [v| |f k F H IH|t a body k H IHb H' IHk]; intros s T W; cbn [run attempts].
    - split; [reflexivity|contradiction].
    - split; [reflexivity|contradiction].
    - inversion T; subst. destruct (IH s (f s)) as (G & Th); [auto|auto|]. rewrite F in *. auto.
    - inversion T; subst. unfold instrumented. rewrite record_puts.
      destruct (recording cfg_test (t_opts t) (h_env s)).
      + destruct (items_kinds bytes_of t a) as (Fa & ND). destruct (puts_spec metadata stable (items bytes_of t a) s Fa W) as (W1 & (_ & M & _) & _).
        destruct (puts metadata (items bytes_of t a) s) as [s1 ok]. cbn [fst snd] in *. destruct ok.
        * pose proof (run_wf metadata bytes_of cfg_test stable body s1 ltac:(assumption) W1) as W2.
          destruct (IHb s1) as (G1 & T1); [assumption|exact W1|]. destruct (run metadata bytes_of cfg_test body s1) as [s2 r]. cbn [fst] in *.
          destruct (IHk r s2) as (G2 & T2); [auto|exact W2|]. split; [congruence|].
          intros e I. apply in_app_or in I as [[<-|I]|I]; [reflexivity|rewrite (T1 e I); congruence|rewrite (T2 e I); congruence].
        * destruct (IHk None s1) as (G2 & T2); [auto|exact W1|]. split; [congruence|].
          intros e I. apply in_app_or in I as [[<-|[]]|I]; [reflexivity|rewrite (T2 e I); congruence].
      + pose proof (run_wf metadata bytes_of cfg_test stable body s ltac:(assumption) W) as W2.
        destruct (IHb s) as (G1 & T1); [assumption|exact W|]. destruct (run metadata bytes_of cfg_test body s) as [s2 r]. cbn [fst] in *.
        destruct (IHk r s2) as (G2 & T2); [auto|exact W2|]. split; [congruence|].
        intros e I. apply in_app_or in I as [I|I]; [exact (T1 e I)|rewrite (T2 e I); congruence].
  Qed.
End Count.

(** C118: a program, told its manifest by TEST_FUZZ_MANIFEST_PATH, that starts without a
    directory of recordings ends with one of as many entries as there were different data to
    record in it (none, and no directory, if there were no data). *)
Theorem C118_count :
  forall (A V : Type) metadata bytes_of cfg_test ls (p : prog A V) (s : host) mp td kind pre (l : list bytes),
    (forall (m m' : fs) cwd mp, agree metadata m m' -> metadata m cwd mp = metadata m' cwd mp) ->
    (forall m d, match ls m d with Some ns => lists_dir m d ns | None => is_dir m d = false end) ->
    hands_off metadata p -> tidy p -> steady p -> fs_wf (h_fs s) ->
    var (h_env s) (lit "TEST_FUZZ_MANIFEST_PATH") = Some mp -> (forall m cwd, metadata m cwd (Some mp) = Some td) ->
    In kind [lit "impl_generic_args"; lit "generic_args"; lit "corpus"] ->
    let d := td ++ [kind ++ suffix s; pre] in
    let todo := attempts metadata bytes_of cfg_test p s in
    h_fs s !! d = None ->
    (forall s0 t a, In (s0, t, a) todo -> ~ impeded metadata bytes_of t a s0) ->
    List.NoDup l -> (forall x, In x l <-> meant metadata bytes_of todo d x) ->
    (forall x y, In x l -> In y l -> sha1 x = sha1 y -> x = y) ->
    let m' := h_fs (run metadata bytes_of cfg_test p s).1 in
    count_entries ls m' d = List.length l /\ (is_dir m' d = true <-> l <> []).
Proof.
  intros A V md b c ls p s mp td kind pre l St Ls H T Sy W Mp Td Ki d todo Ab NI ND Il Un m'.
  assert (Od : forall r, ours md (d ++ r)).
  { intros r. exists (h_fs s), (h_cwd s), (Some mp), td. split; [apply Td|]. right. exists kind, (suffix s). split; [exact Ki|].
    exists ([pre] ++ r). unfold d. now rewrite <- !app_assoc. }
  assert (Le : forall d' x, meant md b todo d' x -> List.length d' = List.length d).
  { intros d' x (s0 & t & a & kd & tn & I & _ & td' & pre' & post' & T0 & _ & _ & ->).
    destruct (attempts_env md b c St p s Sy T W) as (_ & En). specialize (En _ I). cbn [fst] in En. unfold target_dir in T0.
    rewrite En, Mp, Td in T0. injection T0 as <-. unfold d. rewrite !app_length. reflexivity. }
  assert (Gr : forall q, ours md q -> m' !! q = h_fs s !! q \/ (h_fs s !! q = None /\ m' !! q = Some Dir /\ exists d x, meant md b todo d x /\ under q d) \/
            (exists d x, meant md b todo d x /\ q = d ++ [corpus_name x] /\ m' !! q = Some (File x))).
  { intros q O. exact (C118_only A V md b c p s q St H T W O). }
  assert (Emp : forall n, h_fs s !! (d ++ [n]) = None).
  { intros n. destruct (h_fs s !! (d ++ [n])) as [x|] eqn:E; [|reflexivity]. exfalso. apply W in E. rewrite parent_snoc in E.
    unfold is_dir in E. destruct d as [|y d0] eqn:Ed; [destruct td; discriminate Ed|]. now rewrite Ab in E. }
  assert (En : forall n, m' !! (d ++ [n]) <> None <-> In n (map corpus_name l)).
  { intros n. rewrite in_map_iff. split.
    - intros N. destruct (Gr _ (Od [n])) as [E|[(_ & _ & d' & x & Me & (r & U))|(d' & x & Me & E & _)]].
      + rewrite E, Emp in N. contradiction.
      + exfalso. pose proof (Le _ _ Me) as L. rewrite U, !app_length in L. cbn [List.length] in L. lia.
      + apply app_inj_tail in E as (<- & ->). exists x. split; [reflexivity|]. now apply Il.
    - intros (x & <- & I). apply Il in I as (s0 & t & a & kd & tn & I & R & G).
      destruct (C118_kept A V md b c p s s0 t a kd tn (Some x) St H T W I (NI _ _ _ I) R) as (d' & x' & y & [= <-] & G' & L & _).
      rewrite <- (goes_to_unique md _ _ _ _ _ G G') in L. unfold fs_read in L. fold m' in L. destruct (m' !! (d ++ [corpus_name x])); [discriminate|discriminate L]. }
  assert (Dr : l <> [] -> is_dir m' d = true).
  { intros N. destruct l as [|x l0]; [contradiction|]. assert (E : m' !! (d ++ [corpus_name x]) <> None) by (apply En; now left).
    destruct (m' !! (d ++ [corpus_name x])) as [n|] eqn:E'; [|contradiction].
    pose proof (run_wf md b c St p s T W _ _ E') as D. now rewrite parent_snoc in D. }
  split.
  - unfold count_entries. specialize (Ls m' d). destruct (ls m' d) as [ns|].
    + destruct Ls as (_ & Nn & In_). rewrite <- (map_length corpus_name l). apply Permutation.Permutation_length.
      apply NoDup_Permutation; [exact Nn| |].
      * apply NoDup_ListNoDup. clear -ND Un. induction ND as [|x l0 Nx ND IH]; cbn [map]; constructor.
        -- rewrite in_map_iff. intros (y & E & I). apply Nx. rewrite (Un x y); [exact I|now left|now right|]. apply corpus_name_inj. auto.
        -- apply IH. intros y z Iy Iz. apply Un; now right.
      * intros n. rewrite !elem_of_list_In, In_. apply En.
    + destruct l as [|x l0]; [reflexivity|]. rewrite Dr in Ls by discriminate. discriminate.
  - split; [|exact Dr]. intros D ->. pose proof (Od []) as O. rewrite app_nil_r in O.
    destruct (Gr _ O) as [E|[(_ & _ & d' & x & Me & (r & U))|(d' & x & Me & E & _)]].
    + unfold is_dir in D. destruct d as [|y d0] eqn:Ed; [destruct td; discriminate Ed|]. rewrite E, Ab in D. discriminate.
    + pose proof (Le _ _ Me) as L. rewrite U, app_length in L. destruct r; [|cbn [List.length] in L; lia].
      rewrite app_nil_r in U. subst d'. now apply Il in Me.
    + pose proof (Le _ _ Me) as L. rewrite E, app_length in L. cbn [List.length] in L. lia.
Qed.
Print Assumptions C118_count.

(** C118: without TEST_FUZZ_WRITE a program that is not a test leaves all places for
    recordings as they were. *)
Theorem C118_off :
  forall (A V : Type) metadata bytes_of (p : prog A V) (s : host) q,
    (forall (m m' : fs) cwd mp, agree metadata m m' -> metadata m cwd mp = metadata m' cwd mp) ->
    hands_off metadata p -> tidy p -> steady p -> fs_wf (h_fs s) -> ours metadata q ->
    ~ switched_on (h_env s) (lit "TEST_FUZZ_WRITE") ->
    h_fs (run metadata bytes_of false p s).1 !! q = h_fs s !! q.
Proof.
  intros A V md b p s q St H T Sy W O Off.
  assert (E : attempts md b false p s = []).
  { destruct (attempts md b false p s) as [|[[s0 t] a] l] eqn:E; [reflexivity|]. exfalso.
    assert (I : In (s0, t, a) (attempts md b false p s)) by (rewrite E; now left).
    destruct (attempts_env md b false St p s Sy T W) as (_ & En). specialize (En _ I). cbn [fst] in En.
    destruct (C106_attempts A V md b false p s) as (R & _). apply R in I. destruct I as (_ & I). rewrite En in I. contradiction. }
  destruct (C118_only A V md b false p s q St H T W O) as [G|[(_ & _ & d & x & M & _)|(d & x & M & _)]]; [exact G| |];
    rewrite E in M; destruct M as (s0 & t & a & kd & tn & [] & _).
Qed.
Print Assumptions C118_off.

(** C118: the test of recording in production.  It sees one entry if the environment of
    the program has TEST_FUZZ_WRITE on and TEST_FUZZ_ID is not set where the test runs, and
    none otherwise; so it passes with TEST_FUZZ_WRITE added by it, and without only if it is
    not on already, and it fails if TEST_FUZZ_ID is set. *)
Theorem C118_test :
  forall metadata bytes_of ls (e : env) (digits manifest : str) (td : path) (rest rest' : str) (write : bool) (m : fs) (x : bytes),
    (forall (m m' : fs) cwd mp, agree metadata m m' -> metadata m cwd mp = metadata m' cwd mp) ->
    (forall m d, match ls m d with Some ns => lists_dir m d ns | None => is_dir m d = false end) ->
    valid_utf8 manifest = true -> (forall m cwd, metadata m cwd (Some manifest) = Some td) -> fs_wf m ->
    bytes_of (intermediary rest rest') (lit "Hello, world!") = Some x ->
    (forall i, ~ In (lit "corpus_" ++ i) td) ->
    let d := td ++ [lit "corpus"; lit "hello_world::intermediary"] in
    let e' := given_env e manifest write in
    (forall b, m !! d <> Some (File b)) ->
    ~ impeded metadata bytes_of (intermediary rest rest') (lit "Hello, world!") {| h_fs := removed m d; h_cwd := [lit "tmp"]; h_env := e' |} ->
    (switched_on e' (lit "TEST_FUZZ_WRITE") /\ var e (lit "TEST_FUZZ_ID") = None ->
       production_test metadata bytes_of ls e digits manifest td rest rest' write m = Ret (true, 1)) /\
    (~ switched_on e' (lit "TEST_FUZZ_WRITE") \/ var e (lit "TEST_FUZZ_ID") <> None ->
       production_test metadata bytes_of ls e digits manifest td rest rest' write m = Ret (true, 0)) /\
    (write = true -> switched_on e' (lit "TEST_FUZZ_WRITE")) /\
    (write = false -> switched_on e' (lit "TEST_FUZZ_WRITE") <-> switched_on e (lit "TEST_FUZZ_WRITE")).
Proof.
  intros md b ls e digits mf td rest rest' write m x St Ls Vm Td W Bx Nc d e' Nf NI.
  set (t := intermediary rest rest') in *. set (s := {| h_fs := removed m d; h_cwd := [lit "tmp"]; h_env := e' |}) in *.
  assert (Vo : forall k, k <> lit "TEST_FUZZ_MANIFEST_PATH" -> k <> lit "TEST_FUZZ_WRITE" -> e' k = e k).
  { intros k N1 N2. unfold e', given_env, env_set. destruct write; [destruct (str_dec k (lit "TEST_FUZZ_WRITE")); [contradiction|]|];
      (destruct (str_dec k (lit "TEST_FUZZ_MANIFEST_PATH")); [contradiction|reflexivity]). }
  assert (Vi : var e' (lit "TEST_FUZZ_ID") = var e (lit "TEST_FUZZ_ID")).
  { unfold var. rewrite Vo; [reflexivity|discriminate|discriminate]. }
  assert (Vp : var e' (lit "TEST_FUZZ_MANIFEST_PATH") = Some mf).
  { unfold var. assert (e' (lit "TEST_FUZZ_MANIFEST_PATH") = Some mf) as ->; [|now rewrite Vm]. unfold e', given_env. destruct write; reflexivity. }
  assert (Rm : removed m d !! d = None).
  { unfold removed, remove_dir_all. destruct (m !! d) as [[f|]|] eqn:E; [now elim (Nf f)| |exact E].
    apply map_filter_lookup_None. right. intros n _. cbn [fst]. destruct (is_prefix d d) eqn:P; [discriminate|].
    intros _. assert (Q : is_prefix d d = true) by (apply is_prefix_spec; exists []; now rewrite app_nil_r). congruence. }
  assert (W1 : fs_wf (h_fs s)).
  { cbn [s h_fs]. unfold removed. destruct (remove_dir_all m d) as [m'|] eqn:E; [|exact W]. unfold remove_dir_all in E.
    destruct (m !! d) as [[|]|]; try discriminate. injection E as <-. intros p n L. apply map_filter_lookup_Some in L as (L & P). cbn [fst] in P.
    pose proof (W p n L) as D. destruct (parent p) as [|c0 r0] eqn:Ep; [reflexivity|]. unfold is_dir in *.
    destruct (m !! (c0 :: r0)) as [[|]|] eqn:E; try discriminate.
    assert (filter (fun pn : path * node => is_prefix d pn.1 = false) m !! (c0 :: r0) = Some Dir) as ->; [|reflexivity].
    apply map_filter_lookup_Some. split; [exact E|]. cbn [fst]. destruct (is_prefix d (c0 :: r0)) eqn:P'; [|reflexivity].
    exfalso. apply is_prefix_spec in P' as (r & Er). destruct p as [|c p'] using rev_ind; [discriminate Ep|]. rewrite parent_snoc in Ep. subst p'.
    rewrite Er, <- app_assoc in P. assert (Q : is_prefix d (d ++ r ++ [c]) = true) by (apply is_prefix_spec; eexists; reflexivity). congruence. }
  assert (La : looked_at e digits td = Ret d).
  { unfold looked_at, dir_from_target, kind_directory, target_directory, pjoin. cbn [andb bind]. f_equal.
    assert (exists i, maybe_id e (Some digits) = Some i) as (i & ->).
    { unfold maybe_id. destruct (var e (lit "TEST_FUZZ_ID")); eexists; reflexivity. }
    assert (Sg : path_segment (Some i) (lit "corpus") = lit "corpus_" ++ i) by reflexivity. rewrite Sg.
    rewrite !map_app. cbn [map]. rewrite <- app_assoc. unfold d. f_equal.
    - clear -Nc. induction td as [|c td IH]; [reflexivity|]. cbn [map]. rewrite IH by (intros i0 I; apply (Nc i0); now right).
      destruct (str_eqb c (lit "corpus_" ++ i)) eqn:E; [|reflexivity]. apply str_eqb_eq in E. exfalso. apply (Nc i). now left.
    - rewrite str_eqb_refl. reflexivity. }
  assert (Cn : forall m', is_dir m' d = false -> count_entries ls m' d = 0).
  { intros m' D. unfold count_entries. specialize (Ls m' d). destruct (ls m' d); [|reflexivity]. destruct Ls as (Ls & _). congruence. }
  assert (Hp : hands_off md (hello_world rest rest') /\ tidy (hello_world rest rest') /\ steady (hello_world rest rest')).
  { split; [|split]; (constructor; [constructor|]); intros [|]; constructor. }
  destruct Hp as (Ho & Ti & Sy).
  assert (Pt : production_test md b ls e digits mf td rest rest' write m =
               let (s', r) := run md b false (hello_world rest rest') s in
               Ret (match r with Some _ => true | None => false end, count_entries ls (h_fs s') d)).
  { unfold production_test. rewrite La. reflexivity. }
  assert (Ats : forall s0 t0 a0, In (s0, t0, a0) (attempts md b false (hello_world rest rest') s) -> s0 = s /\ t0 = t /\ a0 = lit "Hello, world!").
  { intros s0 t0 a0. unfold hello_world. cbn [attempts]. intros I. apply in_app_or in I as [I|I].
    - destruct (recording _ _ _); [|contradiction]. destruct (record_each _ _ s) as [s1 ok]. destruct I as [I|I]; [injection I as <- <- <-; auto|].
      destruct ok; contradiction.
    - destruct (instrumented _ _ _ _ _ _ _ _ _) as [s1 [u|]]; contradiction. }
  assert (Rr : (run md b false (hello_world rest rest') s).2 = Some tt).
  { destruct (recording false (t_opts t) (h_env s)) eqn:R.
    - apply recording_spec in R.
      destruct (C106_call str unit md b false t (lit "Hello, world!") (Return tt) (fun r => match r with Some u => Return u | None => Unwind end) s St W1 R) as (_ & H).
      destruct (H NI) as (s1 & _ & _ & E). unfold hello_world. fold t. rewrite E. reflexivity.
    - unfold hello_world. cbn [run]. unfold instrumented. fold t. rewrite R. reflexivity. }
  assert (NIm : forall s0 t0 a0, In (s0, t0, a0) (attempts md b false (hello_world rest rest') s) -> ~ impeded md b t0 a0 s0).
  { intros s0 t0 a0 I. apply Ats in I as (-> & -> & ->). exact NI. }
  assert (Od : ours md d).
  { exists m, [], (Some mf), td. split; [apply Td|]. right. exists (lit "corpus"), []. split; [right; right; now left|].
    exists [lit "hello_world::intermediary"]. unfold d. now rewrite <- app_assoc. }
  assert (Zero : ~ switched_on e' (lit "TEST_FUZZ_WRITE") \/ var e (lit "TEST_FUZZ_ID") <> None ->
       is_dir (h_fs (run md b false (hello_world rest rest') s).1) d = false).
  { intros Q. assert (E : h_fs (run md b false (hello_world rest rest') s).1 !! d = None).
    { destruct Q as [Q|Q]; [rewrite (C118_off str unit md b _ s d St Ho Ti Sy W1 Od Q); exact Rm|].
      destruct (C118_only str unit md b false _ s d St Ho Ti W1 Od) as [G|[(_ & _ & d' & x' & M & (r & U))|(d' & x' & M & U & _)]].
      - rewrite G. exact Rm.
      - exfalso. destruct M as (s0 & t0 & a0 & kd & tn & I & Rc & td' & pre & post & T0 & _ & _ & ->). apply Ats in I as (-> & -> & ->).
        unfold target_dir in T0. cbn [s h_env] in T0. rewrite Vp, Td in T0. injection T0 as <-. unfold d in U. rewrite <- app_assoc in U.
        apply app_inv_head in U. unfold suffix in U. cbn [s h_env] in U. rewrite Vi in U. destruct (var e (lit "TEST_FUZZ_ID")) as [i|]; [|contradiction].
        cbn [app] in U. injection U as U _ _. inversion Rc; subst kd; discriminate U.
      - exfalso. destruct M as (s0 & t0 & a0 & kd & tn & I & Rc & td' & pre & post & T0 & _ & _ & ->). apply Ats in I as (-> & -> & ->).
        unfold target_dir in T0. cbn [s h_env] in T0. rewrite Vp, Td in T0. injection T0 as <-. unfold d in U.
        apply (f_equal (@List.length _)) in U. rewrite !app_length in U. cbn [List.length] in U. lia. }
    unfold is_dir. destruct d as [|c0 d0] eqn:Ed; [unfold d in Ed; destruct td; discriminate Ed|]. now rewrite E. }
  split; [|split; [|split]].
  - intros (On & Id).
    assert (Sf : suffix s = []) by (unfold suffix; cbn [s h_env]; now rewrite Vi, Id).
    assert (Me : forall y, In y [x] <-> meant md b (attempts md b false (hello_world rest rest') s) (td ++ [lit "corpus" ++ suffix s; lit "hello_world::intermediary"]) y).
    { intros y. split.
      - intros [<-|[]]. exists s, t, (lit "Hello, world!"), (lit "corpus"), (t_type_a t). split; [|split].
        + unfold hello_world. cbn [attempts]. fold t. assert (recording false (t_opts t) (h_env s) = true) as ->.
          { apply recording_spec. split; [reflexivity|exact On]. }
          destruct (record_each _ _ s) as [s1 ok]. now left.
        + rewrite <- Bx. now constructor.
        + exists td, (lit "hello_world::intermediary"), rest'. split; [unfold target_dir; cbn [s h_env]; rewrite Vp; apply Td|].
          split; [reflexivity|]. split; [|reflexivity]. apply str_find_none. reflexivity.
      - intros (s0 & t0 & a0 & kd & tn & I & Rc & td' & pre & post & T0 & _ & _ & E). apply Ats in I as (-> & -> & ->).
        unfold target_dir in T0. cbn [s h_env] in T0. rewrite Vp, Td in T0. injection T0 as <-. apply app_inv_head in E. injection E as E _.
        apply (app_inv_tail (suffix s) (lit "corpus") kd) in E. left.
        assert (Q : forall kd tn o, records b t (lit "Hello, world!") kd tn o -> lit "corpus" = kd -> o = Some x).
        { intros kd' tn' o [| |]; [discriminate|discriminate|intros _; exact Bx]. }
        specialize (Q _ _ _ Rc E). congruence. }
    destruct (C118_count str unit md b false ls (hello_world rest rest') s mf td (lit "corpus") (lit "hello_world::intermediary") [x]) as (C & _); auto.
    + right; right; now left.
    + rewrite Sf, app_nil_r. exact Rm.
    + constructor; [intros []|constructor].
    + intros y z [<-|[]] [<-|[]] _. reflexivity.
    + rewrite Pt. rewrite Sf, app_nil_r in C. fold d in C. destruct (run md b false (hello_world rest rest') s) as [s' r]. cbn [fst snd] in *.
      subst r. now rewrite C.
  - intros Q. rewrite Pt. specialize (Zero Q). apply Cn in Zero. destruct (run md b false (hello_world rest rest') s) as [s' r]. cbn [fst snd] in *.
    subst r. now rewrite Zero.
  - intros ->. exists (lit "1"). split; [reflexivity|]. split; [reflexivity|discriminate].
  - intros ->. reflexivity.
Qed.
Print Assumptions C118_test.

(** C118: the test's program can record its call unless cargo does not tell the target directory,
    or something is in the way of one of three files: the names of its types are such that they
    never matter. *)
Theorem C118_impeded :
  forall metadata bytes_of (rest rest' : str) (s : host) (td : path) (x : bytes),
    target_dir metadata s = Some td -> bytes_of (intermediary rest rest') (lit "Hello, world!") = Some x ->
    (impeded metadata bytes_of (intermediary rest rest') (lit "Hello, world!") s <->
     exists kind y, In (kind, y) [(lit "impl_generic_args", []); (lit "generic_args", []); (lit "corpus", x)] /\
       let d := td ++ [kind ++ suffix s; lit "hello_world::intermediary"] in
       ((exists q b, q <> [] /\ under q d /\ h_fs s !! q = Some (File b)) \/ h_fs s !! (d ++ [corpus_name y]) = Some Dir)).
Proof.
  intros md b rest rest' s td x T B. set (t := intermediary rest rest') in *.
  assert (G : forall kind tn d, tn = t_type_g t \/ tn = t_type_a t ->
            goes_to md s kind tn d <-> d = td ++ [kind ++ suffix s; lit "hello_world::intermediary"]).
  { intros kind tn d E.
    assert (E' : exists r, tn = lit "hello_world::intermediary" ++ lit "_fuzz__" ++ r) by (destruct E as [-> | ->]; eexists; reflexivity).
    destruct E' as [r ->]. assert (N0 : ~ occurs (lit "_fuzz__") (lit "hello_world::intermediary" ++ lit "_fuzz_")) by (apply str_find_none; reflexivity).
    assert (Gt : goes_to md s kind (lit "hello_world::intermediary" ++ lit "_fuzz__" ++ r) (td ++ [kind ++ suffix s; lit "hello_world::intermediary"])).
    { exists td, (lit "hello_world::intermediary"), r. auto. }
    split; [intros H; exact (goes_to_unique md s _ _ _ _ H Gt)|intros ->; exact Gt]. }
  assert (O : forall tn, tn = t_type_g t \/ tn = t_type_a t -> occurs (lit "_fuzz__") tn).
  { intros tn [-> | ->]; [exists (lit "hello_world::intermediary"), rest|exists (lit "hello_world::intermediary"), rest']; reflexivity. }
  split.
  - intros [K|(kind & tn & data & R & K)]; [congruence|].
    assert (Q : exists y, data = Some y /\ In (kind, y) [(lit "impl_generic_args", []); (lit "generic_args", []); (lit "corpus", x)] /\ (tn = t_type_g t \/ tn = t_type_a t)).
    { destruct R; [exists []|exists []|exists x]; (split; [try reflexivity; exact B|]); (split; [cbn; tauto|tauto]). }
    destruct Q as (y & -> & I & Tn). exists kind, y. split; [exact I|]. cbv zeta.
    destruct K as [K|[K|(d & Gd & K)]]; [discriminate K|destruct (K (O _ Tn))|]. apply (G _ _ _ Tn) in Gd. subst d.
    destruct K as [K|(y' & Ey & K)]; [now left|right]. injection Ey as <-. exact K.
  - intros (kind & y & I & K). right.
    assert (Q : exists tn, records b t (lit "Hello, world!") kind tn (Some y) /\ (tn = t_type_g t \/ tn = t_type_a t)).
    { cbn [In] in I. destruct I as [I|[I|[I|[]]]]; injection I as <- <-.
      - exists (t_type_g t). split; [exact (r_impl b t _)|tauto].
      - exists (t_type_g t). split; [exact (r_fn b t _)|tauto].
      - exists (t_type_a t). split; [rewrite <- B; now constructor|tauto]. }
    destruct Q as (tn & R & Tn). exists kind, tn, (Some y). split; [exact R|]. right. right.
    eexists. split; [apply (G _ _ _ Tn); reflexivity|]. destruct K as [K|K]; [now left|right; eauto].
Qed.
Print Assumptions C118_impeded.

(** * Examples *)

Transparent sha1 corpus_name.

(** The entries of a directory, in some order. *)
Definition ex_ls (m : fs) (d : path) : option (list str) :=
  if is_dir m d then
    Some (List.concat (map (fun pn : path * node => if is_prefix d pn.1 && (List.length pn.1 =? S (List.length d)) then [List.last pn.1 []] else []) (map_to_list m)))
  else None.
Definition ex_text (_ : instr) (a : str) : option bytes := Some a.

(** Three calls, the last with the argument of the first. *)
Definition ex_calls : prog str unit :=
  let t := intermediary (lit "::Args") (lit "::write_args::Args") in
  Call t (lit "x") (Return tt) (fun _ => Call t (lit "y") (Call t (lit "x") Unwind (fun _ => Return tt)) (fun _ => Return tt)).

(** C118: the test as it is run, with a stale corpus in place; with TEST_FUZZ_ID or
    TEST_FUZZ_WRITE set from outside; and a program with nested, repeated and panicking calls. *)
Example C118_example :
  let d := [lit "a"; lit "target"; lit "corpus"; lit "hello_world::intermediary"] in
  let stale := (write_data ∅ d (lit "old")).1 in
  let e0 : env := fun _ => None in
  let go e write := production_test ex_metadata ex_text ex_ls e (lit "3") (lit "/a/Cargo.toml") [lit "a"; lit "target"] (lit "::Args") (lit "::write_args::Args") write stale in
  let ended := run ex_metadata ex_text false ex_calls
                 {| h_fs := stale; h_cwd := [lit "tmp"]; h_env := given_env e0 (lit "/a/Cargo.toml") true |} in
  go e0 true = Ret (true, 1) /\ go e0 false = Ret (true, 0) /\
  go (env_set e0 (lit "TEST_FUZZ_ID") (Some (lit "7"))) true = Ret (true, 0) /\
  go (env_set e0 (lit "TEST_FUZZ_WRITE") (Some (lit "1"))) false = Ret (true, 1) /\
  count_entries ex_ls (h_fs ended.1) d = 3 /\
  map (fun x => fs_read (h_fs ended.1) (d ++ [corpus_name x])) [lit "old"; lit "x"; lit "y"] = [Some (lit "old"); Some (lit "x"); Some (lit "y")].
Proof. vm_compute. repeat split. Qed.
