(** Reading a recording while it is being made. *)
From Coq Require Import List Ascii String Bool Arith Lia.
From stdpp Require Import gmap strings list.
From Verif Require Import Base Dirs Sha1 Fs Write WriteConc.
Import ListNotations.
Opaque sha1 corpus_name.

(** A harness that has been given a corpus file as its standard input
    (cargo-test-fuzz/src/lib.rs:934, afl-fuzz likewise) and reads it (runtime/src/lib.rs:199-201):
    what it has read so far, and whether it has come to the end. *)
Record reader := Reader { rd_got : bytes; rd_eof : bool }.

(** read(2) of at most [S n] bytes at the reader's offset.  Simplification: the file that was
    opened is the one at the path (nothing removes corpus files). *)
Definition read_step (m : fs) (p : path) (r : reader) (n : nat) : reader :=
  if rd_eof r then r else
  match m !! p with
  | Some (File b) => match firstn (S n) (skipn (length (rd_got r)) b) with
                     | [] => Reader (rd_got r) true
                     | chunk => Reader (rd_got r ++ chunk) false
                     end
  | _ => r
  end.

(** Recorders and the reader of the file [p], interleaved. *)
Inductive xevent := XRec (e : nat * action) | XRead (n : nat).
Definition xstep (p : path) (s : sys * reader) (e : xevent) : sys * reader :=
  match e with
  | XRec e => (sstep s.1 e, s.2)
  | XRead n => (s.1, read_step s.1.1 p s.2 n)
  end.
Definition xrun (p : path) (s : sys * reader) (es : list xevent) : sys * reader := fold_left (xstep p) es s.

(** * Proofs *)

(** Whatever is at [p] is a prefix of [x]. *)
Definition partial_at (m : fs) (p : path) (x : bytes) : Prop :=
  forall b, m !! p = Some (File b) -> exists off, b = firstn off x.

Lemma read_prefix m p x r n :
  partial_at m p x -> (exists k, rd_got r = firstn k x) -> exists k, rd_got (read_step m p r n) = firstn k x.
Proof.
  intros P (k & G). unfold read_step. destruct (rd_eof r); [eauto|].
  destruct (m !! p) as [[b|]|] eqn:E; [|eauto..]. destruct (P b E) as (off & ->).
  remember (firstn (S n) (skipn (length (rd_got r)) (firstn off x))) as chunk eqn:C.
  destruct chunk as [|c chunk]; [cbn; eauto|]. cbn [rd_got]. rewrite C.
  rewrite skipn_firstn_comm, firstn_firstn, G.
  exists (length (firstn k x) + Nat.min (S n) (off - length (firstn k x))). rewrite firstn_add. f_equal.
  rewrite firstn_length. symmetry. apply firstn_min.
Qed.

Lemma xrun_prefix (I : sys -> Prop) (ok : nat * action -> Prop) p x s r es :
  (forall s e, ok e -> I s -> I (sstep s e)) -> (forall s, I s -> partial_at s.1 p x) ->
  I s -> (forall e, In (XRec e) es -> ok e) -> (exists k, rd_got r = firstn k x) ->
  exists k, rd_got (xrun p (s, r) es).2 = firstn k x.
Proof.
  intros St Pa. revert s r. induction es as [|e es IH]; intros s r Is Ok G; [exact G|]. cbn [xrun fold_left].
  destruct e as [e|n]; cbn [xstep fst snd].
  - apply IH; [apply St; [apply Ok; now left|exact Is]|intros e' Ie; apply Ok; now right|exact G].
  - apply IH; [exact Is|intros e' Ie; apply Ok; now right|]. now apply read_prefix; [apply Pa|].
Qed.

(** ** A single recorder of the datum *)

Definition alone (p : path) (x : bytes) (s : sys) : Prop :=
  partial_at s.1 p x /\
  (forall i r, s.2 !! i = Some r -> r_path r = p -> r_data r = x) /\
  (forall i j r q, s.2 !! i = Some r -> s.2 !! j = Some q -> r_path r = p -> r_path q = p -> i = j) /\
  (forall i r off, s.2 !! i = Some r -> r_path r = p -> r_st r = SWrite off ->
     off <= length x /\ s.1 !! p = Some (File (firstn off x))).

(** Steps change neither the data nor the paths. *)
Lemma rstep_static m r a : r_dir (rstep m r a).2 = r_dir r /\ r_data (rstep m r a).2 = r_data r.
Proof.
  unfold rstep. destruct a as [n| |]; destruct (r_st r) as [k| |off| | |]; cbn; try (now split).
  - destruct (length (r_dir r) <=? k); [now split|]. destruct (m !! _) as [[]|]; now split.
  - destruct (fs_write _ _ _); now split.
  - destruct (length (r_data r) <=? off); [now split|]. destruct (m !! _) as [[]|]; now split.
Qed.

Lemma rstep_path m r a : r_path (rstep m r a).2 = r_path r.
Proof. unfold r_path. destruct (rstep_static m r a) as [-> ->]. reflexivity. Qed.

(** A recorder of another file. *)
Lemma rstep_other m r a p :
  r_path r <> p -> (rstep m r a).1 !! p = m !! p \/ (m !! p = None /\ (rstep m r a).1 !! p = Some Dir).
Proof.
  intros N. unfold rstep. destruct a as [n| |]; destruct (r_st r) as [k| |off| | |]; cbn; auto.
  - destruct (length (r_dir r) <=? k); [auto|]. destruct (m !! firstn (S k) (r_dir r)) as [[]|] eqn:E; cbn; auto.
    destruct (decide (firstn (S k) (r_dir r) = p)) as [<-|D]; [right; now rewrite lookup_insert|left; now rewrite lookup_insert_ne].
  - destruct (fs_write m (r_path r) []) as [m'|] eqn:W; cbn; auto. apply fs_write_some in W as (-> & _).
    left. now rewrite lookup_insert_ne.
  - destruct (length (r_data r) <=? off); [auto|]. destruct (m !! r_path r) as [[]|]; cbn; auto. left. now rewrite lookup_insert_ne.
Qed.

Lemma dir_not_path r k : firstn k (r_dir r) <> r_path r.
Proof.
  intros E. apply (f_equal (@length _)) in E. unfold r_path in E. rewrite firstn_length, app_length in E. cbn in E. lia.
Qed.

Lemma alone_step p x s e : alone p x s -> alone p x (sstep s e).
Proof.
  destruct s as [m ps], e as [i a]. intros (Pa & Da & Un & Wr). unfold sstep. cbn [fst snd] in *.
  destruct (ps !! i) as [r|] eqn:L; [|exact (conj Pa (conj Da (conj Un Wr)))].
  destruct (rstep m r a) as [m' r'] eqn:E.
  assert (St : r_dir r' = r_dir r /\ r_data r' = r_data r /\ r_path r' = r_path r).
  { pose proof (rstep_static m r a) as [A B]. pose proof (rstep_path m r a) as C. rewrite E in A, B, C. now repeat split. }
  destruct St as (Sd & Sx & Sp).
  assert (At : forall j q, <[i := r']> ps !! j = Some q -> (j = i /\ q = r') \/ (j <> i /\ ps !! j = Some q)).
  { intros j q J. destruct (decide (i = j)) as [<-|D].
    - rewrite list_lookup_insert in J by (eapply lookup_lt_Some; eauto). left. split; congruence.
    - rewrite list_lookup_insert_ne in J by exact D. right. split; congruence. }
  assert (Da' : forall j q, <[i := r']> ps !! j = Some q -> r_path q = p -> r_data q = x).
  { intros j q J P. destruct (At j q J) as [[-> ->]|[_ K]]; [rewrite Sx; eapply Da; [exact L|congruence]|eapply Da; eauto]. }
  assert (Un' : forall j k q q', <[i := r']> ps !! j = Some q -> <[i := r']> ps !! k = Some q' -> r_path q = p -> r_path q' = p -> j = k).
  { intros j k q q' J K P Q. destruct (At j q J) as [[-> ->]|[_ J']], (At k q' K) as [[-> ->]|[_ K']]; [reflexivity| | |].
    - eapply Un; [exact L|exact K'|congruence|exact Q].
    - eapply Un; [exact J'|exact L|exact P|congruence].
    - eapply Un; eauto. }
  destruct (decide (r_path r = p)) as [P|N].
  - (* the recorder of p *)
    pose proof (Da i r L P) as Dx.
    assert (Oth : forall j q off, <[i := r']> ps !! j = Some q -> r_path q = p -> r_st q = SWrite off -> q = r').
    { intros j q off J Q _. destruct (At j q J) as [[_ ->]|[D K]]; [reflexivity|]. exfalso. apply D. eapply Un; eauto. }
    assert (Goal : partial_at m' p x /\ (forall off, r_st r' = SWrite off -> off <= length x /\ m' !! p = Some (File (firstn off x)))).
    { unfold rstep in E. destruct a as [n| |].
      - destruct (r_st r) as [k| |off| | |] eqn:S0.
        + destruct (length (r_dir r) <=? k); [injection E as <- <-; split; [exact Pa|discriminate]|].
          destruct (m !! firstn (S k) (r_dir r)) as [[]|] eqn:F; injection E as <- <-; (split; [|discriminate]); try exact Pa.
          intros b. rewrite lookup_insert_ne; [apply Pa|]. rewrite <- P. apply dir_not_path.
        + destruct (fs_write m (r_path r) []) as [m1|] eqn:W; injection E as <- <-.
          * apply fs_write_some in W as (-> & _). rewrite P. split.
            -- intros b. rewrite lookup_insert. intros [= <-]. now exists 0.
            -- intros off [= <-]. split; [lia|]. apply lookup_insert.
          * split; [exact Pa|discriminate].
        + destruct (Wr i r off L P S0) as [Lo Co]. rewrite Dx in E.
          destruct (length x <=? off) eqn:Le; [injection E as <- <-; split; [exact Pa|discriminate]|].
          rewrite P, Co in E. injection E as <- <-. apply Nat.leb_gt in Le. split.
          * intros b. rewrite lookup_insert. intros [= <-]. rewrite write_at_end by lia. eauto.
          * intros off' [= <-]. split; [rewrite chunk_length; lia|]. rewrite lookup_insert. now rewrite write_at_end by lia.
        + injection E as <- <-. split; [exact Pa|congruence].
        + injection E as <- <-. split; [exact Pa|congruence].
        + injection E as <- <-. split; [exact Pa|congruence].
      - destruct (r_st r) eqn:S0; injection E as <- <-; (split; [exact Pa|]); cbn; congruence.
      - destruct (r_st r) eqn:S0; injection E as <- <-; (split; [exact Pa|]); cbn; congruence. }
    destruct Goal as [G1 G2]. split; [exact G1|]. split; [exact Da'|]. split; [exact Un'|].
    intros j q off J Q S1. rewrite (Oth j q off J Q S1) in S1. now apply G2.
  - (* another one *)
    assert (C : m' !! p = m !! p \/ (m !! p = None /\ m' !! p = Some Dir)).
    { pose proof (rstep_other m r a p N) as C. rewrite E in C. exact C. }
    split; [|split; [exact Da'|split; [exact Un'|]]].
    + intros b B. cbn [fst] in B. destruct C as [C|[_ C]]; [apply Pa; cbn; congruence|congruence].
    + intros j q off J Q S1. cbn [fst snd] in *. destruct (At j q J) as [[-> ->]|[_ K]]; [congruence|].
      destruct (Wr j q off K Q S1) as [A B]. split; [exact A|]. destruct C as [C|[C _]]; congruence.
Qed.

(** ** Writes that are not split *)

Definition whole_inv (p : path) (x : bytes) (s : sys) : Prop :=
  partial_at s.1 p x /\
  (forall i r, s.2 !! i = Some r -> r_path r = p -> r_data r = x) /\
  (forall i r off, s.2 !! i = Some r -> r_path r = p -> r_st r = SWrite off -> off = 0 \/ length x <= off).

Definition whole (x : bytes) (e : nat * action) : Prop := forall n, e.2 = Go n -> length x <= S n.

Lemma whole_step p x s e : whole x e -> whole_inv p x s -> whole_inv p x (sstep s e).
Proof.
  destruct s as [m ps], e as [i a]. intros Wh (Pa & Da & Wr). unfold sstep. cbn [fst snd] in *.
  destruct (ps !! i) as [r|] eqn:L; [|exact (conj Pa (conj Da Wr))].
  destruct (rstep m r a) as [m' r'] eqn:E.
  assert (St : r_data r' = r_data r /\ r_path r' = r_path r).
  { pose proof (rstep_static m r a) as [_ B]. pose proof (rstep_path m r a) as C. rewrite E in B, C. now split. }
  destruct St as (Sx & Sp).
  assert (At : forall j q, <[i := r']> ps !! j = Some q -> q = r' \/ ps !! j = Some q).
  { intros j q J. destruct (decide (i = j)) as [<-|D].
    - rewrite list_lookup_insert in J by (eapply lookup_lt_Some; eauto). left. congruence.
    - rewrite list_lookup_insert_ne in J by exact D. right. congruence. }
  assert (Da' : forall j q, <[i := r']> ps !! j = Some q -> r_path q = p -> r_data q = x).
  { intros j q J P. destruct (At j q J) as [->|K]; [rewrite Sx; eapply Da; [exact L|congruence]|eapply Da; eauto]. }
  destruct (decide (r_path r = p)) as [P|N].
  - pose proof (Da i r L P) as Dx.
    assert (Goal : partial_at m' p x /\ (forall off, r_st r' = SWrite off -> off = 0 \/ length x <= off)).
    { unfold rstep in E. destruct a as [n| |].
      - destruct (r_st r) as [k| |off| | |] eqn:S0.
        + destruct (length (r_dir r) <=? k); [injection E as <- <-; split; [exact Pa|discriminate]|].
          destruct (m !! firstn (S k) (r_dir r)) as [[]|] eqn:F; injection E as <- <-; (split; [|discriminate]); try exact Pa.
          intros b. rewrite lookup_insert_ne; [apply Pa|]. rewrite <- P. apply dir_not_path.
        + destruct (fs_write m (r_path r) []) as [m1|] eqn:W; injection E as <- <-.
          * apply fs_write_some in W as (-> & _). rewrite P. split.
            -- intros b. rewrite lookup_insert. intros [= <-]. now exists 0.
            -- intros off [= <-]. now left.
          * split; [exact Pa|discriminate].
        + rewrite Dx in E. specialize (Wr i r off L P S0).
          destruct (length x <=? off) eqn:Le; [injection E as <- <-; split; [exact Pa|discriminate]|].
          apply Nat.leb_gt in Le. assert (off = 0) as -> by lia.
          rewrite P in E. destruct (m !! p) as [[b|]|] eqn:B; injection E as <- <-; try (split; [exact Pa|discriminate]).
          assert (Lx : length x <= S n) by (now apply Wh). cbn [skipn Nat.add].
          rewrite (firstn_all2 x) by exact Lx. split.
          * intros b'. rewrite lookup_insert. intros [= <-]. exists (length x). rewrite firstn_all.
            destruct (Pa b B) as (off & ->). unfold write_at. cbn [firstn Nat.sub repeat app Nat.add].
            rewrite skipn_all2 by (rewrite firstn_length; lia). apply app_nil_r.
          * intros off [= <-]. right. reflexivity.
        + injection E as <- <-. split; [exact Pa|congruence].
        + injection E as <- <-. split; [exact Pa|congruence].
        + injection E as <- <-. split; [exact Pa|congruence].
      - destruct (r_st r) eqn:S0; injection E as <- <-; (split; [exact Pa|]); cbn; congruence.
      - destruct (r_st r) eqn:S0; injection E as <- <-; (split; [exact Pa|]); cbn; congruence. }
    destruct Goal as [G1 G2]. split; [exact G1|]. split; [exact Da'|].
    intros j q off J Q S1. destruct (At j q J) as [->|K]; [now apply G2|now apply (Wr j q off K)].
  - assert (C : m' !! p = m !! p \/ (m !! p = None /\ m' !! p = Some Dir)).
    { pose proof (rstep_other m r a p N) as C. rewrite E in C. exact C. }
    split; [|split; [exact Da'|]].
    + intros b B. cbn [fst] in B. destruct C as [C|[_ C]]; [apply Pa; cbn; congruence|congruence].
    + intros j q off J Q S1. cbn [fst snd] in *. destruct (At j q J) as [->|K]; [congruence|]. now apply (Wr j q off K).
Qed.
