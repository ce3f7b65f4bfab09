(** Recording data: content-addressed files. *)
From Coq Require Import List Ascii String Bool Arith Lia.
From stdpp Require Import gmap strings.
From Verif Require Import Base Dirs Sha1 Fs.
Import ListNotations.
Opaque sha1 corpus_name.

(** runtime/src/lib.rs:189-197 [write_data]: create the directory, ignoring
    failure ([unwrap_or_default]); write the data to a file named after its
    digest; the result says whether the write succeeded.  Single caller; the
    system calls of concurrent callers are interleaved in WriteConc.v. *)
Definition write_data (m : fs) (dir : path) (data : bytes) : fs * bool :=
  let m1 := (create_dir_all m dir).1 in
  match fs_write m1 (dir ++ [corpus_name data]) data with
  | Some m2 => (m2, true)
  | None => (m1, false)
  end.

(** A history of recordings: pairs of a directory and a datum, each recorded by
    one call of [write_data] (from [write_args] etc., runtime/src/lib.rs:171-187,
    or [consolidate], cargo-test-fuzz/src/lib.rs:799).  A failed recording panics
    in its caller (lib.rs:174,180,186), but other tests of the history go on. *)
Fixpoint record_all (m : fs) (h : list (path * bytes)) : fs :=
  match h with
  | [] => m
  | (d, x) :: h' => record_all (write_data m d x).1 h'
  end.

(** The results of the recordings of a history. *)
Fixpoint record_results (m : fs) (h : list (path * bytes)) : list bool :=
  match h with
  | [] => []
  | (d, x) :: h' => (write_data m d x).2 :: record_results (write_data m d x).1 h'
  end.

(** * Specification *)

(** Every file directly in [dir] is named by the lower-case hexadecimal SHA-1 of its contents. *)
Definition content_addressed (m : fs) (dir : path) : Prop :=
  forall n b, m !! (dir ++ [n]) = Some (File b) ->
    length n = 40 /\ Forall is_hex_char n /\ unhex n = Some (sha1 b).

(** [dir] can be recorded to: no file where one of its ancestors or it should be,
    no directory where a corpus file should be. *)
Definition usable (m : fs) (dir : path) : Prop :=
  can_mkdir m dir /\ forall x, m !! (dir ++ [corpus_name x]) <> Some Dir.

(** No recorded file of the history is an ancestor of (or is) a directory of the history. *)
Definition no_nesting (h : list (path * bytes)) : Prop :=
  forall d x d' x', In (d, x) h -> In (d', x') h -> ~ under (d ++ [corpus_name x]) d'.

(** No two different data of the history have the same SHA-1 digest. *)
Definition no_collision (h : list (path * bytes)) : Prop :=
  forall d x d' x', In (d, x) h -> In (d', x') h -> sha1 x = sha1 x' -> x = x'.

(** * Proofs *)

Lemma write_data_lookup m dir data p n :
  (write_data m dir data).1 !! p = Some n ->
  m !! p = Some n \/ (n = Dir /\ p <> [] /\ is_prefix p dir = true) \/
  (n = File data /\ p = dir ++ [corpus_name data]).
Proof.
  unfold write_data.
  destruct (fs_write (create_dir_all m dir).1 (dir ++ [corpus_name data]) data) as [m2|] eqn:W; simpl.
  - apply fs_write_some in W as (-> & _ & _ & _).
    destruct (decide (dir ++ [corpus_name data] = p)) as [<-|Hne].
    + rewrite lookup_insert. intros [= <-]. auto.
    + rewrite lookup_insert_ne by exact Hne. intros H. apply create_dir_all_new in H as [H|H]; auto.
  - intros H. apply create_dir_all_new in H as [H|H]; auto.
Qed.

Lemma write_data_keep m dir data p n :
  m !! p = Some n -> p <> dir ++ [corpus_name data] -> (write_data m dir data).1 !! p = Some n.
Proof.
  intros H N. unfold write_data.
  destruct (fs_write (create_dir_all m dir).1 (dir ++ [corpus_name data]) data) as [m2|] eqn:W; simpl.
  - apply fs_write_some in W as (-> & _ & _ & _). rewrite lookup_insert_ne by congruence.
    now apply create_dir_all_keep.
  - now apply create_dir_all_keep.
Qed.

Lemma record_all_lookup m h p n :
  record_all m h !! p = Some n ->
  m !! p = Some n \/ (n = Dir /\ p <> [] /\ exists d x, In (d, x) h /\ is_prefix p d = true) \/
  (exists d x, In (d, x) h /\ n = File x /\ p = d ++ [corpus_name x]).
Proof.
  revert m; induction h as [|[d x] h IH]; intros m H; simpl in *; [auto|].
  apply IH in H as [H|[(-> & N & d' & x' & I & P)|(d' & x' & I & -> & ->)]].
  - apply write_data_lookup in H as [H|[(-> & N & P)|(-> & ->)]]; [auto| |].
    + right; left. split; [reflexivity|]. split; [exact N|]. exists d, x. auto.
    + right; right. exists d, x. auto.
  - right; left. split; [reflexivity|]. split; [exact N|]. exists d', x'. auto.
  - right; right. exists d', x'. auto.
Qed.

Lemma record_all_keep m h p n :
  m !! p = Some n -> (forall d x, In (d, x) h -> p <> d ++ [corpus_name x]) ->
  record_all m h !! p = Some n.
Proof.
  revert m; induction h as [|[d x] h IH]; intros m H N; simpl in *; [exact H|].
  apply IH; [|intros; apply N; auto]. apply write_data_keep; [exact H|]. apply N; auto.
Qed.

Lemma corpus_name_spec x :
  length (corpus_name x) = 40 /\ Forall is_hex_char (corpus_name x) /\ unhex (corpus_name x) = Some (sha1 x).
Proof.
  split; [apply corpus_name_length|]. split; [apply corpus_name_chars|].
  Transparent corpus_name. unfold corpus_name. Opaque corpus_name. apply unhex_hex.
Qed.

(** C01 *)
Lemma record_all_content_addressed m h dir :
  content_addressed m dir -> content_addressed (record_all m h) dir.
Proof.
  intros H n b L. apply record_all_lookup in L as [L|[(E & _)|(d & x & I & [= <-] & E)]].
  - apply (H n b L).
  - discriminate.
  - apply app_inj_tail in E as [<- ->]. apply corpus_name_spec.
Qed.

(** Success of one recording. *)
Lemma write_data_ok m dir data :
  usable m dir ->
  (write_data m dir data).2 = true /\
  (forall q, q <> [] -> is_prefix q dir = true -> (write_data m dir data).1 !! q = Some Dir) /\
  (write_data m dir data).1 !! (dir ++ [corpus_name data]) = Some (File data).
Proof.
  intros [C N]. unfold write_data.
  pose proof (create_dir_all_ok m dir C) as OK.
  pose proof (create_dir_all_dir m dir OK) as D.
  rewrite fs_write_ok.
  - simpl. split; [reflexivity|]. split.
    + intros q Nq P. rewrite lookup_insert_ne.
      * now apply create_dir_all_all.
      * intros <-. apply is_prefix_spec in P as [r E].
        apply (f_equal (@length _)) in E. rewrite !app_length in E. simpl in E. lia.
    + apply lookup_insert.
  - now rewrite parent_snoc.
  - destruct dir; discriminate.
  - rewrite create_dir_all_frame; [apply N|].
    destruct (is_prefix (dir ++ [corpus_name data]) dir) eqn:P; [|reflexivity].
    apply is_prefix_spec in P as [r E]. apply (f_equal (@length _)) in E.
    rewrite !app_length in E. simpl in E. lia.
Qed.

Lemma not_under_is_prefix d p : ~ under d p -> is_prefix d p = false.
Proof. intros H. destruct (is_prefix d p) eqn:E; [|reflexivity]. apply is_prefix_spec in E. contradiction. Qed.

(** [usable] is stable under recordings that do not create a file above or
    directories below the directory. *)
Lemma usable_write m dir d x :
  usable m dir -> ~ under (d ++ [corpus_name x]) dir ->
  (forall y, ~ under (dir ++ [corpus_name y]) d) -> usable (write_data m d x).1 dir.
Proof.
  intros [C N] U1 U2. split.
  - intros q b P L. apply write_data_lookup in L as [L|[(E & _)|(E & ->)]].
    + apply (C q b P L).
    + discriminate.
    + apply U1. now apply is_prefix_spec.
  - intros y L. apply write_data_lookup in L as [L|[(E & _ & P)|(E & _)]].
    + apply (N y L).
    + apply (U2 y). now apply is_prefix_spec.
    + discriminate.
Qed.

(** Directories of a history never lie at or below a possible corpus file of another. *)
Definition separate (h : list (path * bytes)) : Prop :=
  forall d x d' x' y, In (d, x) h -> In (d', x') h -> ~ under (d ++ [corpus_name y]) d'.

Lemma separate_no_nesting h : separate h -> no_nesting h.
Proof. intros H d x d' x' I I' U. apply (H d x d' x' x I I' U). Qed.

Lemma record_all_spec m h :
  (forall d x, In (d, x) h -> usable m d) -> separate h ->
  (forall d x, In (d, x) h -> exists x', In (d, x') h /\ corpus_name x' = corpus_name x /\
       record_all m h !! (d ++ [corpus_name x]) = Some (File x')) /\
  (forall d x q, In (d, x) h -> q <> [] -> is_prefix q d = true -> record_all m h !! q = Some Dir) /\
  (forall p, (forall d x, In (d, x) h -> p <> d ++ [corpus_name x]) ->
     (forall d x, In (d, x) h -> p = [] \/ is_prefix p d = false) -> record_all m h !! p = m !! p) /\
  Forall (fun b => b = true) (record_results m h).
Proof.
  revert m; induction h as [|[d0 x0] h IH]; intros m U S.
  - repeat split; try (intros; contradiction). constructor.
  - assert (U' : forall d x, In (d, x) h -> usable (write_data m d0 x0).1 d).
    { intros d x I. apply usable_write; [apply (U d x); right; exact I| |].
      - apply (S d0 x0 d x); [left; reflexivity|right; exact I].
      - intros y. apply (S d x d0 x0); [right; exact I|left; reflexivity]. }
    assert (S' : separate h).
    { intros d x d' x' y I I'. apply (S d x d' x'); right; assumption. }
    destruct (IH _ U' S') as (A & B & C & D).
    destruct (write_data_ok m d0 x0 (U d0 x0 (or_introl eq_refl))) as (W1 & W2 & W3).
    simpl. split; [|split; [|split]].
    + intros d x I.
      assert (Dec : (exists x', In (d, x') h /\ corpus_name x' = corpus_name x) \/
                    ~ (exists x', In (d, x') h /\ corpus_name x' = corpus_name x)).
      { clear. induction h as [|[e y] h [IH|IH]].
        - right. intros (x' & [] & _).
        - left. destruct IH as (x' & I & E). exists x'. simpl; auto.
        - destruct (decide (e = d)) as [->|Hne]; [destruct (decide (corpus_name y = corpus_name x)) as [E|Hne]|].
          + left. exists y. simpl; auto.
          + right. intros (x' & [[= ->]|I] & E); [contradiction|]. apply IH. eauto.
          + right. intros (x' & [[= -> ->]|I] & E); [contradiction|]. apply IH. eauto. }
      destruct Dec as [(x1 & I1 & E1)|ND].
      * destruct (A d x1 I1) as (x2 & I2 & E2 & L). exists x2. split; [auto|]. split; [congruence|].
        rewrite <- E1. exact L.
      * destruct I as [[= -> ->]|I]; [|exfalso; apply ND; eauto].
        exists x. split; [auto|]. split; [reflexivity|].
        apply record_all_keep; [exact W3|].
        intros d' x' I' E. apply app_inj_tail in E as [-> E]. apply ND. eauto.
    + intros d x q I N P. destruct I as [[= -> ->]|I]; [|apply (B d x); assumption].
      apply record_all_keep; [apply W2; assumption|].
      intros d' x' I' ->. apply (S d' x' d x x'); [right; exact I'|left; reflexivity|].
      now apply is_prefix_spec.
    + intros p N1 N2. rewrite C.
      * destruct (m !! p) as [n|] eqn:L.
        -- apply write_data_keep; [exact L|]. apply N1. left; reflexivity.
        -- destruct ((write_data m d0 x0).1 !! p) as [n|] eqn:L'; [|reflexivity].
           apply write_data_lookup in L' as [L'|[(-> & Np & P)|(-> & E)]].
           ++ congruence.
           ++ destruct (N2 d0 x0 (or_introl eq_refl)) as [->|P']; [contradiction|congruence].
           ++ exfalso. apply (N1 d0 x0); [left; reflexivity|exact E].
      * intros d x I. apply N1. right; exact I.
      * intros d x I. apply N2 with (x := x). right; exact I.
    + constructor; assumption.
Qed.

Lemma corpus_name_eq x y : corpus_name x = corpus_name y <-> sha1 x = sha1 y.
Proof.
  split; [apply corpus_name_inj|].
  Transparent corpus_name. unfold corpus_name. Opaque corpus_name. congruence.
Qed.

(** C03: extensional equality of the outcomes. *)
Lemma record_all_same m h1 h2 :
  (forall e, In e h1 <-> In e h2) ->
  (forall d x, In (d, x) h1 -> usable m d) -> separate h1 -> no_collision h1 ->
  record_all m h1 = record_all m h2.
Proof.
  intros E U S N.
  destruct (record_all_spec m h1 U S) as (A1 & B1 & C1 & _).
  assert (U2 : forall d x, In (d, x) h2 -> usable m d) by (intros d x I; apply (U d x), E, I).
  assert (S2 : separate h2).
  { intros d x d' x' y I I'. apply (S d x d' x' y); apply E; assumption. }
  destruct (record_all_spec m h2 U2 S2) as (A2 & B2 & C2 & _).
  apply map_eq. intros p.
  assert (Dec : (exists d x, In (d, x) h1 /\ p = d ++ [corpus_name x]) \/
                (forall d x, In (d, x) h1 -> p <> d ++ [corpus_name x])).
  { clear. induction h1 as [|[d x] h [IH|IH]].
    - right. intros d x [].
    - left. destruct IH as (d' & x' & I & ->). exists d', x'. simpl; auto.
    - destruct (decide (p = d ++ [corpus_name x])) as [->|Hne].
      + left. exists d, x. simpl; auto.
      + right. intros d' x' [[= <- <-]|I]; auto. }
  destruct Dec as [(d & x & I & ->)|N1].
  - destruct (A1 d x I) as (x1 & I1 & E1 & ->).
    destruct (A2 d x (proj1 (E _) I)) as (x2 & I2 & E2 & ->).
    apply corpus_name_eq in E1, E2.
    rewrite (N d x1 d x I1 I E1), (N d x2 d x (proj2 (E _) I2) I E2). reflexivity.
  - assert (Dec : (exists d x, In (d, x) h1 /\ p <> [] /\ is_prefix p d = true) \/
                (forall d x, In (d, x) h1 -> p = [] \/ is_prefix p d = false)).
    { clear. destruct p as [|c p]; [right; auto|].
      induction h1 as [|[d x] h [IH|IH]].
      - right. intros d x [].
      - left. destruct IH as (d' & x' & I & H). exists d', x'. simpl; auto.
      - destruct (is_prefix (c :: p) d) eqn:P.
        + left. exists d, x. split; [left; reflexivity|]. split; [discriminate|exact P].
        + right. intros d' x' [[= <- <-]|I]; [right; exact P|exact (IH d' x' I)]. }
    destruct Dec as [(d & x & I & Np & P)|N2].
    + rewrite (B1 d x p I Np P), (B2 d x p (proj1 (E _) I) Np P). reflexivity.
    + rewrite C1 by assumption. symmetry. apply C2; intros d x I; [apply N1 with (x := x)|apply N2 with (x := x)]; apply E; exact I.
Qed.

Lemma mkdirs_idem m pre rest :
  mkdirs (mkdirs m pre rest).1 pre rest = mkdirs m pre rest.
Proof.
  revert m pre; induction rest as [|c rest IH]; intros m pre; simpl; [reflexivity|].
  destruct (m !! (pre ++ [c])) as [[b|]|] eqn:E; simpl.
  - rewrite E. reflexivity.
  - rewrite (mkdirs_keep m (pre ++ [c]) rest (pre ++ [c]) Dir E). apply IH.
  - rewrite (mkdirs_keep _ (pre ++ [c]) rest (pre ++ [c]) Dir); [apply IH|apply lookup_insert].
Qed.

Lemma mkdirs_insert_file m pre rest p b :
  (length pre + length rest < length p)%nat ->
  mkdirs (<[p := File b]> m) pre rest = (<[p := File b]> (mkdirs m pre rest).1, (mkdirs m pre rest).2).
Proof.
  revert m pre; induction rest as [|c rest IH]; intros m pre L; simpl; [reflexivity|].
  simpl in L.
  assert (Hne : p <> pre ++ [c]). { intros ->. rewrite app_length in L. simpl in L. lia. }
  assert (L' : (length (pre ++ [c]) + length rest < length p)%nat). { rewrite app_length. simpl. lia. }
  rewrite lookup_insert_ne by exact Hne.
  destruct (m !! (pre ++ [c])) as [[b'|]|] eqn:E; simpl.
  - reflexivity.
  - apply IH, L'.
  - rewrite insert_commute by congruence. apply IH, L'.
Qed.

Lemma write_data_idem m dir x :
  write_data (write_data m dir x).1 dir x = write_data m dir x.
Proof.
  unfold write_data at 2 3.
  destruct (fs_write (create_dir_all m dir).1 (dir ++ [corpus_name x]) x) as [m2|] eqn:W; cbn [fst snd].
  - apply fs_write_some in W as (-> & D & N & Ne).
    unfold write_data, create_dir_all in *.
    rewrite mkdirs_insert_file by (rewrite app_length; simpl; lia). cbn [fst snd].
    rewrite mkdirs_idem. rewrite fs_write_ok; simpl.
    + rewrite insert_insert. reflexivity.
    + revert D. unfold is_dir. rewrite parent_snoc. destruct dir as [|c dir]; [auto|].
      rewrite lookup_insert_ne; [auto|]. intros E. apply (f_equal (@length _)) in E.
      rewrite app_length in E. simpl in E. lia.
    + exact Ne.
    + rewrite lookup_insert. discriminate.
  - unfold write_data, create_dir_all in *. rewrite mkdirs_idem. rewrite W. reflexivity.
Qed.

(** Names never equal to names skipped by display, replay and consolidate. *)
Lemma corpus_name_neq x n : length n <> 40%nat -> corpus_name x <> n.
Proof. intros H E. apply H. rewrite <- E. apply corpus_name_length. Qed.
