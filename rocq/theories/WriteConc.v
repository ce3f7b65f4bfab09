(** Concurrent, killed and failing recorders: [write_data] at the level of
    system calls. *)
From Coq Require Import List Ascii String Bool Arith Lia.
From stdpp Require Import gmap strings list.
From Verif Require Import Base Dirs Sha1 Fs Write.
Import ListNotations.
Opaque sha1 corpus_name.

(** Where a recorder (a thread or process inside [write_data],
    runtime/src/lib.rs:189-197) is: having ensured the first [k] components of
    its directory (190 [create_dir_all]); about to open its file (196
    [std::fs::write]: open with create and truncate); having written [off] bytes
    (196, the [write_all] loop inside [std::fs::write]); returned [Ok]; returned
    [Err]; or killed. *)
Inductive rstate := SMkdir (k : nat) | SOpen | SWrite (off : nat) | SDone | SFailed | SKilled.

(** A recorder of one datum into one directory. *)
Record recorder := Rec { r_dir : path; r_data : bytes; r_st : rstate }.
Definition r_path (r : recorder) : path := r_dir r ++ [corpus_name (r_data r)].
Definition at_st (r : recorder) (s : rstate) := Rec (r_dir r) (r_data r) s.

(** What happens to a recorder: it executes its next system call, a write
    transferring at most [S n] bytes; its next system call fails; it is killed. *)
Inductive action := Go (n : nat) | Fail | Kill.

(** write(2) at offset [off] of a file with contents [b]: a gap is filled with zeros. *)
Definition write_at (b : bytes) (off : nat) (chunk : bytes) : bytes :=
  firstn off b ++ repeat zero (off - length b) ++ chunk ++ skipn (off + length chunk) b.

(** One system call of [write_data] (runtime/src/lib.rs:189-197).
    Simplification: [create_dir_all] creates missing components top down (the
    real one first tries bottom up, without effect). *)
Definition rstep (m : fs) (r : recorder) (a : action) : fs * recorder :=
  match a, r_st r with
  | _, (SDone | SFailed | SKilled) => (m, r)
  | Kill, _ => (m, at_st r SKilled)
  | Fail, SMkdir _ => (m, at_st r SOpen)
  | Fail, _ => (m, at_st r SFailed)
  | Go _, SMkdir k =>
      if length (r_dir r) <=? k then (m, at_st r SOpen) else
      match m !! firstn (S k) (r_dir r) with
      | Some Dir => (m, at_st r (SMkdir (S k)))
      | Some (File _) => (m, at_st r SOpen)
      | None => (<[firstn (S k) (r_dir r) := Dir]> m, at_st r (SMkdir (S k)))
      end
  | Go _, SOpen =>
      match fs_write m (r_path r) [] with
      | Some m' => (m', at_st r (SWrite 0))
      | None => (m, at_st r SFailed)
      end
  | Go n, SWrite off =>
      if length (r_data r) <=? off then (m, at_st r SDone) else
      match m !! r_path r with
      | Some (File b) =>
          let chunk := firstn (S n) (skipn off (r_data r)) in
          (<[r_path r := File (write_at b off chunk)]> m, at_st r (SWrite (off + length chunk)))
      | _ => (m, at_st r SFailed)
      end
  end.

(** A system: the file system and the recorders; a schedule says which recorder
    does what next. *)
Definition sys := (fs * list recorder)%type.
Definition sstep (s : sys) (e : nat * action) : sys :=
  match s.2 !! e.1 with
  | Some r => let (m', r') := rstep s.1 r e.2 in (m', <[e.1 := r']> s.2)
  | None => s
  end.
Definition srun (s : sys) (sched : list (nat * action)) : sys := fold_left sstep sched s.

(** The initial system: every recorder is at the start of [write_data]. *)
Definition start (m : fs) (h : list (path * bytes)) : sys :=
  (m, map (fun e => Rec e.1 e.2 (SMkdir 0)) h).

(** * Proofs *)

Lemma write_at_length b off chunk :
  length (write_at b off chunk) = Nat.max (length b) (off + length chunk).
Proof.
  unfold write_at. rewrite !app_length, repeat_length, firstn_length, skipn_length. lia.
Qed.

Lemma nth_error_skipn {A} (l : list A) n i : nth_error (skipn n l) i = nth_error l (n + i).
Proof. revert l; induction n as [|n IH]; intros [|x l]; simpl; auto. now destruct i. Qed.
Lemma nth_error_firstn {A} (l : list A) n i : i < n -> nth_error (firstn n l) i = nth_error l i.
Proof.
  revert l i; induction n as [|n IH]; intros [|x l] [|i] H; simpl; auto; try lia. apply IH. lia.
Qed.
Lemma nth_error_firstn_ge {A} (l : list A) n i : n <= i -> nth_error (firstn n l) i = None.
Proof. intros H. apply nth_error_None. rewrite firstn_length. lia. Qed.

Lemma write_at_in b off chunk i :
  off <= i < off + length chunk ->
  nth_error (write_at b off chunk) i = nth_error chunk (i - off).
Proof.
  intros H. unfold write_at.
  rewrite (app_assoc (firstn off b)). rewrite nth_error_app2;
    rewrite app_length, firstn_length, repeat_length; [|lia].
  replace (off `min` length b + (off - length b)) with off by lia.
  rewrite nth_error_app1 by lia. reflexivity.
Qed.

Lemma write_at_out b off chunk i :
  i < length b -> (i < off \/ off + length chunk <= i) ->
  nth_error (write_at b off chunk) i = nth_error b i.
Proof.
  intros L H. unfold write_at. destruct H as [H|H].
  - rewrite nth_error_app1 by (rewrite firstn_length; lia). now apply nth_error_firstn.
  - rewrite nth_error_app2 by (rewrite firstn_length; lia). rewrite firstn_length.
    rewrite nth_error_app2 by (rewrite repeat_length; lia). rewrite repeat_length.
    rewrite nth_error_app2 by lia. rewrite nth_error_skipn. f_equal. lia.
Qed.

Lemma write_at_gap b off chunk i :
  length b <= i < off -> nth_error (write_at b off chunk) i = Some zero.
Proof.
  intros H. unfold write_at.
  rewrite nth_error_app2 by (rewrite firstn_length; lia). rewrite firstn_length.
  rewrite nth_error_app1 by (rewrite repeat_length; lia).
  apply nth_error_repeat. lia.
Qed.

(** A chunk of the datum. *)
Lemma chunk_nth (d : bytes) off n i :
  i < length (firstn (S n) (skipn off d)) ->
  nth_error (firstn (S n) (skipn off d)) i = nth_error d (off + i).
Proof.
  intros H. rewrite firstn_length, skipn_length in H. rewrite nth_error_firstn by lia.
  apply nth_error_skipn.
Qed.

Lemma chunk_length (d : bytes) off n :
  length (firstn (S n) (skipn off d)) = Nat.min (S n) (length d - off).
Proof. now rewrite firstn_length, skipn_length. Qed.

(** A recorder that is killed or failed. *)
Definition dead (r : recorder) : Prop := r_st r = SFailed \/ r_st r = SKilled.

(** Invariant for the file of one recorder [r] among the recorders [ps]. *)
Definition file_ok (m : fs) (ps : list recorder) (r : recorder) : Prop :=
  exists b, m !! r_path r = Some (File b) /\ length b <= length (r_data r) /\
    (forall i c, nth_error b i = Some c -> c = zero \/ nth_error (r_data r) i = Some c) /\
    (forall i, i < length (r_data r) ->
       nth_error b i = nth_error (r_data r) i \/
       exists q, q ∈ ps /\ r_path q = r_path r /\
         (dead q \/ exists off, r_st q = SWrite off /\ off <= i)).

Definition opened (r : recorder) : Prop := (exists off, r_st r = SWrite off) \/ r_st r = SDone.

(** Invariant of a system without collisions. *)
Definition inv (s : sys) : Prop :=
  (forall p q, p ∈ s.2 -> q ∈ s.2 -> sha1 (r_data p) = sha1 (r_data q) -> r_data p = r_data q) /\
  (forall r off, r ∈ s.2 -> r_st r = SWrite off -> off <= length (r_data r)) /\
  (forall r, r ∈ s.2 -> opened r -> file_ok s.1 s.2 r).

Lemma r_path_data s p q : inv s -> p ∈ s.2 -> q ∈ s.2 -> r_path p = r_path q -> r_data p = r_data q /\ r_dir p = r_dir q.
Proof.
  intros (N & _) Ip Iq E. unfold r_path in E. apply app_inj_tail in E as [E1 E2].
  split; [|exact E1]. apply N; auto. now apply corpus_name_eq.
Qed.

(** Updating the state of a recorder does not change its path. *)
Lemma r_path_at r s : r_path (at_st r s) = r_path r.
Proof. reflexivity. Qed.

Lemma elem_update (ps : list recorder) i r r' q :
  ps !! i = Some r -> q ∈ <[i := r']> ps -> q = r' \/ (q ∈ ps).
Proof.
  intros L I. apply elem_of_list_lookup in I as [j J].
  destruct (decide (i = j)) as [<-|Hne].
  - rewrite list_lookup_insert in J by (eapply lookup_lt_Some; eauto). left; congruence.
  - rewrite list_lookup_insert_ne in J by exact Hne. right. apply elem_of_list_lookup; eauto.
Qed.
Lemma elem_update_new (ps : list recorder) i r r' : ps !! i = Some r -> r' ∈ <[i := r']> ps.
Proof.
  intros L. apply elem_of_list_lookup. exists i. apply list_lookup_insert. eapply lookup_lt_Some; eauto.
Qed.
Lemma elem_update_old (ps : list recorder) i r r' q :
  ps !! i = Some r -> q ∈ ps -> q = r \/ q ∈ <[i := r']> ps.
Proof.
  intros L I. apply elem_of_list_lookup in I as [j J].
  destruct (decide (i = j)) as [<-|Hne]; [left; congruence|].
  right. apply elem_of_list_lookup. exists j. now rewrite list_lookup_insert_ne.
Qed.

(** A step that leaves the files alone and moves [r] to state [s'], where
    writers may only become dead or done when everything is written. *)
Lemma inv_quiet m m' ps i r s' :
  inv (m, ps) -> ps !! i = Some r ->
  (forall p b, m !! p = Some (File b) -> m' !! p = Some (File b)) ->
  (match s' with
   | SWrite _ => False
   | SDone => r_st r = SDone \/ r_st r = SWrite (length (r_data r))
   | SFailed | SKilled => True
   | _ => ~ opened r /\ ~ dead r
   end) ->
  inv (m', <[i := at_st r s']> ps).
Proof.
  intros Hinv L Hfiles Hs. assert (Hinv' := Hinv). destruct Hinv' as (N & W & F). simpl in *.
  assert (Ir : r ∈ ps) by (apply elem_of_list_lookup; eauto).
  assert (D : forall q, q ∈ <[i := at_st r s']> ps -> exists q0, q0 ∈ ps /\ r_data q0 = r_data q /\ r_dir q0 = r_dir q).
  { intros q I. apply (elem_update _ _ _ _ _ L) in I as [->|I]; [exists r|exists q]; auto. }
  split; [|split]; simpl.
  - intros p q Ip Iq E. destruct (D p Ip) as (p0 & Ip0 & Ep & _). destruct (D q Iq) as (q0 & Iq0 & Eq & _).
    rewrite <- Ep, <- Eq. apply N; auto. congruence.
  - intros q off I E. apply (elem_update _ _ _ _ _ L) in I as [->|I]; [|now apply W].
    simpl in E. subst s'. contradiction.
  - assert (K : forall q, q ∈ ps -> opened q -> file_ok m' (<[i := at_st r s']> ps) q).
    { intros q I O. destruct (F q I O) as (b & Lb & Len & Z & P). exists b.
      split; [auto|]. split; [exact Len|]. split; [exact Z|].
      intros j Hj. destruct (P j Hj) as [E|(w & Iw & Ew & Dw)]; [left; exact E|].
      destruct (elem_update_old ps i r (at_st r s') w L Iw) as [->|Iw']; [|right; exists w; auto].
      destruct s'.
      - exfalso. destruct Hs as [Hs1 Hs2]. destruct Dw as [Dw|(off & Dw & _)]; [auto|]. apply Hs1. left; eauto.
      - exfalso. destruct Hs as [Hs1 Hs2]. destruct Dw as [Dw|(off & Dw & _)]; [auto|]. apply Hs1. left; eauto.
      - contradiction.
      - exfalso. destruct Hs as [Hs|Hs]; destruct Dw as [[Dw|Dw]|(off & Dw & Hoff)]; try congruence.
        rewrite Hs in Dw. injection Dw as <-.
        destruct (r_path_data (m, ps) r q Hinv Ir I Ew) as [E _]. rewrite E in Hoff. lia.
      - right. exists (at_st r SFailed). split; [eapply elem_update_new; eauto|]. split; [exact Ew|]. left; left; reflexivity.
      - right. exists (at_st r SKilled). split; [eapply elem_update_new; eauto|]. split; [exact Ew|]. left; right; reflexivity. }
    intros q I O. apply (elem_update _ _ _ _ _ L) in I as [->|I]; [|apply K; assumption].
    destruct s'; try (destruct O as [[off O]|O]; discriminate O).
    + contradiction.
    + assert (O' : opened r) by (destruct Hs as [Hs|Hs]; [right; exact Hs|left; eauto]).
      destruct (K r Ir O') as (b & Lb & Len & Z & P). exists b. auto.
Qed.

Lemma inv_step s e : inv s -> inv (sstep s e).
Proof.
  destruct s as [m ps], e as [i a]. intros Hinv. unfold sstep. simpl.
  destruct (ps !! i) as [r|] eqn:L; [|exact Hinv].
  assert (Ir : r ∈ ps) by (apply elem_of_list_lookup; eauto).
  assert (Same : forall s', s' = r_st r -> inv (m, <[i := at_st r s']> ps)).
  { intros s' ->. assert (at_st r (r_st r) = r) as -> by (destruct r; reflexivity).
    rewrite list_insert_id by exact L. exact Hinv. }
  assert (Hr : at_st r (r_st r) = r) by (destruct r; reflexivity).
  assert (Id : inv (m, <[i := r]> ps)) by (rewrite list_insert_id by exact L; exact Hinv).
  unfold rstep. destruct a as [n| |].
  - (* Go *)
    destruct (r_st r) as [k| |off| | |] eqn:St; try exact Id.
    + assert (NO : ~ opened r /\ ~ dead r).
      { split; intros H; [destruct H as [[off H]|H]|destruct H as [H|H]]; congruence. }
      destruct (length (r_dir r) <=? k); [apply (inv_quiet m m _ _ r); auto|].
      destruct (m !! firstn (S k) (r_dir r)) as [[b|]|] eqn:E.
      * apply (inv_quiet m m _ _ r); auto.
      * apply (inv_quiet m m _ _ r); auto.
      * apply (inv_quiet m _ _ _ r); auto. intros p b Hp. rewrite lookup_insert_ne; [exact Hp|].
        intros <-. congruence.
    + (* open *)
      destruct (fs_write m (r_path r) []) as [m'|] eqn:W; [|apply (inv_quiet m m _ _ r); simpl; auto].
      apply fs_write_some in W as (-> & _ & _ & _).
      assert (Hinv' := Hinv). destruct Hinv' as (N & Wr & F). simpl in *.
      assert (D : forall q, q ∈ <[i := at_st r (SWrite 0)]> ps -> exists q0, q0 ∈ ps /\ r_data q0 = r_data q /\ r_path q0 = r_path q).
      { intros q I. apply (elem_update _ _ _ _ _ L) in I as [->|I]; [exists r|exists q]; auto. }
      split; [|split]; simpl.
      * intros p q Ip Iq E. destruct (D p Ip) as (p0 & Ip0 & Ep & _). destruct (D q Iq) as (q0 & Iq0 & Eq & _).
        rewrite <- Ep, <- Eq. apply N; auto. congruence.
      * intros q off I E. apply (elem_update _ _ _ _ _ L) in I as [->|I]; [|now apply Wr].
        injection E as <-. lia.
      * intros q I O. destruct (D q I) as (q0 & Iq0 & Eqd & Eqp).
        destruct (decide (r_path q = r_path r)) as [Ep|Np].
        -- exists []. rewrite Ep, lookup_insert. split; [reflexivity|]. split; [simpl; lia|].
           split; [intros j c H; destruct j; discriminate|].
           intros j Hj. right. exists (at_st r (SWrite 0)). split; [eapply elem_update_new; eauto|].
           split; [reflexivity|]. right. exists 0. split; [reflexivity|lia].
        -- apply (elem_update _ _ _ _ _ L) in I as [->|I]; [exfalso; apply Np; reflexivity|].
           destruct (F q I O) as (b & Lb & Len & Z & P). exists b. rewrite lookup_insert_ne by congruence.
           split; [exact Lb|]. split; [exact Len|]. split; [exact Z|].
           intros j Hj. destruct (P j Hj) as [E|(w & Iw & Ew & Dw)]; [left; exact E|].
           destruct (elem_update_old ps i r (at_st r (SWrite 0)) w L Iw) as [->|Iw']; [congruence|].
           right. exists w. auto.
    + (* write *)
      destruct (length (r_data r) <=? off) eqn:Le.
      * apply Nat.leb_le in Le. apply (inv_quiet m m _ _ r); auto. right.
        destruct Hinv as (_ & Wr & _). specialize (Wr r off Ir St). rewrite St. f_equal. lia.
      * apply Nat.leb_gt in Le.
        destruct (m !! r_path r) as [[b0|]|] eqn:Lm; [|apply (inv_quiet m m _ _ r); simpl; auto..].
        set (chunk := firstn (S n) (skipn off (r_data r))).
        assert (Lc : length chunk = Nat.min (S n) (length (r_data r) - off)) by apply chunk_length.
        assert (Hinv' := Hinv). destruct Hinv' as (N & Wr & F). cbn [fst snd] in *.
        set (r' := at_st r (SWrite (off + length chunk))).
        assert (D : forall q, q ∈ <[i := r']> ps -> exists q0, q0 ∈ ps /\ r_data q0 = r_data q /\ r_path q0 = r_path q).
        { intros q I. apply (elem_update _ _ _ _ _ L) in I as [->|I]; [exists r|exists q]; auto. }
        assert (New : file_ok (<[r_path r := File (write_at b0 off chunk)]> m) (<[i := r']> ps) r).
        { destruct (F r Ir (or_introl (ex_intro _ off St))) as (b & Lb & Len & Z & P).
          rewrite Lm in Lb. injection Lb as <-.
          exists (write_at b0 off chunk). split; [apply lookup_insert|].
          split; [rewrite write_at_length; lia|]. split.
          - intros j c Hj.
            destruct (decide (off <= j < off + length chunk)) as [Hin|Hout].
            + rewrite write_at_in in Hj by exact Hin. unfold chunk in Hj.
              rewrite chunk_nth in Hj by (fold chunk; lia).
              right. rewrite <- Hj. f_equal. lia.
            + destruct (decide (j < length b0)) as [Hb|Hb].
              * rewrite write_at_out in Hj by (auto; lia). apply Z. exact Hj.
              * destruct (decide (j < off)) as [Ho|Ho].
                -- rewrite write_at_gap in Hj by lia. left. congruence.
                -- assert (nth_error (write_at b0 off chunk) j = None) as E.
                   { apply nth_error_None. rewrite write_at_length. lia. }
                   congruence.
          - intros j Hj.
            destruct (decide (off <= j < off + length chunk)) as [Hin|Hout].
            + left. rewrite write_at_in by exact Hin. unfold chunk.
              rewrite chunk_nth by (fold chunk; lia). f_equal. lia.
            + destruct (P j Hj) as [E|(w & Iw & Ew & Dw)].
              * left. rewrite <- E. apply write_at_out; [|lia].
                apply nth_error_Some. rewrite E. apply nth_error_Some. exact Hj.
              * right. destruct (elem_update_old ps i r r' w L Iw) as [->|Iw'].
                -- destruct Dw as [[Dw|Dw]|(o & Dw & Ho)]; try congruence.
                   assert (o = off) as -> by congruence.
                   exists r'. split; [eapply elem_update_new; eauto|]. split; [reflexivity|].
                   right. exists (off + length chunk). split; [reflexivity|lia].
                -- exists w. auto. }
        split; [|split]; simpl.
        -- intros p q Ip Iq E. destruct (D p Ip) as (p0 & Ip0 & Ep & _). destruct (D q Iq) as (q0 & Iq0 & Eq & _).
           rewrite <- Ep, <- Eq. apply N; auto. congruence.
        -- intros q o I E. apply (elem_update _ _ _ _ _ L) in I as [->|I]; [|now apply Wr].
           injection E as <-. unfold r'; simpl. lia.
        -- intros q I O. destruct (D q I) as (q0 & Iq0 & Eqd & Eqp).
           destruct (decide (r_path q = r_path r)) as [Ep|Np].
           ++ assert (Ed : r_data q = r_data r).
              { rewrite <- Eqd. apply (r_path_data (m, ps) q0 r Hinv Iq0 Ir). congruence. }
              destruct New as (b & Lb & Len & Z & P). exists b. rewrite Ep, Ed. auto.
           ++ apply (elem_update _ _ _ _ _ L) in I as [->|I]; [exfalso; apply Np; reflexivity|].
              destruct (F q I O) as (b & Lb & Len & Z & P). exists b. rewrite lookup_insert_ne by congruence.
              split; [exact Lb|]. split; [exact Len|]. split; [exact Z|].
              intros j Hj. destruct (P j Hj) as [E|(w & Iw & Ew & Dw)]; [left; exact E|].
              destruct (elem_update_old ps i r r' w L Iw) as [->|Iw']; [congruence|].
              right. exists w. auto.
  - (* Fail *)
    destruct (r_st r) as [k| |off| | |] eqn:St; try exact Id.
    + apply (inv_quiet m m _ _ r); auto.
      split; intros H; [destruct H as [[off H]|H]|destruct H as [H|H]]; congruence.
    + apply (inv_quiet m m _ _ r); simpl; auto.
    + apply (inv_quiet m m _ _ r); simpl; auto.
  - (* Kill *)
    destruct (r_st r) as [k| |off| | |] eqn:St; try exact Id; apply (inv_quiet m m _ _ r); simpl; auto.
Qed.

Lemma inv_run s sched : inv s -> inv (srun s sched).
Proof.
  revert s; induction sched as [|e sched IH]; intros s H; simpl; [exact H|].
  apply IH, inv_step, H.
Qed.

Lemma start_elem m h r : r ∈ (start m h).2 -> In (r_dir r, r_data r) h /\ r_st r = SMkdir 0.
Proof.
  simpl. intros I. apply elem_of_list_In, in_map_iff in I as ([d x] & <- & I). auto.
Qed.

Lemma inv_start m h : no_collision h -> inv (start m h).
Proof.
  intros N. split; [|split].
  - intros p q Ip Iq E. apply start_elem in Ip as [Ip _]. apply start_elem in Iq as [Iq _].
    apply (N _ _ _ _ Ip Iq E).
  - intros r off I E. apply start_elem in I as [_ I]. congruence.
  - intros r I [[off O]|O]; apply start_elem in I as [_ I]; congruence.
Qed.

(** The recorders of a run are those of the start, in order. *)
Lemma sstep_static s e : map (fun r => (r_dir r, r_data r)) (sstep s e).2 = map (fun r => (r_dir r, r_data r)) s.2.
Proof.
  destruct s as [m ps], e as [i a]. unfold sstep; simpl. destruct (ps !! i) as [r|] eqn:L; [|reflexivity].
  destruct (rstep m r a) as [m' r'] eqn:E. simpl.
  assert (Hr : r_dir r' = r_dir r /\ r_data r' = r_data r).
  { unfold rstep in E.
    destruct a; destruct (r_st r); try (injection E as <- <-; auto);
      repeat match goal with
      | H : (if ?c then _ else _) = _ |- _ => destruct c
      | H : match ?c with _ => _ end = _ |- _ => destruct c
      end; injection E as <- <-; auto. }
  destruct Hr as [H1 H2].
  apply list_eq. intros j. rewrite !list_lookup_fmap.
  destruct (decide (i = j)) as [<-|Hne].
  - rewrite list_lookup_insert by (eapply lookup_lt_Some; eauto). rewrite L. simpl. congruence.
  - now rewrite list_lookup_insert_ne.
Qed.

Lemma srun_static s sched : map (fun r => (r_dir r, r_data r)) (srun s sched).2 = map (fun r => (r_dir r, r_data r)) s.2.
Proof.
  revert s; induction sched as [|e sched IH]; intros s; simpl; [reflexivity|].
  rewrite IH. apply sstep_static.
Qed.

Lemma start_static m h : map (fun r => (r_dir r, r_data r)) (start m h).2 = h.
Proof. simpl. rewrite map_map. simpl. rewrite <- (map_id h) at 2. apply map_ext. intros []; reflexivity. Qed.

Lemma nth_error_ext {A} (l1 l2 : list A) :
  (forall i, nth_error l1 i = nth_error l2 i) -> l1 = l2.
Proof.
  revert l2; induction l1 as [|x l1 IH]; intros [|y l2] H; auto.
  - specialize (H 0). discriminate.
  - specialize (H 0). discriminate.
  - f_equal; [specialize (H 0); simpl in H; congruence|]. apply IH. intros i. apply (H (S i)).
Qed.

(** C04: when all recorders have returned successfully, every datum is intact. *)
Lemma conc_intact m h sched :
  no_collision h ->
  (forall r, r ∈ (srun (start m h) sched).2 -> r_st r = SDone) ->
  forall d x, In (d, x) h -> (srun (start m h) sched).1 !! (d ++ [corpus_name x]) = Some (File x).
Proof.
  intros N Done d x I.
  pose proof (inv_run _ sched (inv_start m h N)) as (_ & _ & F).
  assert (Ir : exists r, r ∈ (srun (start m h) sched).2 /\ r_dir r = d /\ r_data r = x).
  { rewrite <- (start_static m h), <- (srun_static _ sched) in I.
    apply in_map_iff in I as (r & [= <- <-] & I). exists r. split; [now apply elem_of_list_In|auto]. }
  destruct Ir as (r & Ir & <- & <-).
  destruct (F r Ir (or_intror (Done r Ir))) as (b & Lb & Len & Z & P).
  fold (r_path r). rewrite Lb. do 2 f_equal.
  apply nth_error_ext. intros i. destruct (decide (i < length (r_data r))) as [Hi|Hi].
  - destruct (P i Hi) as [E|(q & Iq & _ & [[D|D]|(off & D & _)])]; [exact E|..];
      rewrite (Done q Iq) in D; discriminate.
  - rewrite (proj2 (nth_error_None (r_data r) i)) by lia. apply nth_error_None. lia.
Qed.

(** C05, concurrent: whatever has happened, every byte of a file being recorded is
    the right one or zero. *)
Lemma conc_bytes m h sched r :
  no_collision h -> r ∈ (srun (start m h) sched).2 -> opened r ->
  exists b, (srun (start m h) sched).1 !! r_path r = Some (File b) /\ length b <= length (r_data r) /\
    forall i c, nth_error b i = Some c -> c = zero \/ nth_error (r_data r) i = Some c.
Proof.
  intros N I O. pose proof (inv_run _ sched (inv_start m h N)) as (_ & _ & F).
  destruct (F r I O) as (b & Lb & Len & Z & _). eauto.
Qed.

(** * A single recorder *)

Definition single_inv (m0 : fs) (s : sys) : Prop :=
  exists r, s.2 = [r] /\
  match r_st r with
  | SMkdir _ | SOpen => s.1 !! r_path r = m0 !! r_path r
  | SWrite off => off <= length (r_data r) /\ s.1 !! r_path r = Some (File (firstn off (r_data r)))
  | SDone => s.1 !! r_path r = Some (File (r_data r))
  | SFailed | SKilled => s.1 !! r_path r = m0 !! r_path r \/
      exists off, s.1 !! r_path r = Some (File (firstn off (r_data r)))
  end.

Lemma firstn_add {A} (l : list A) a b : firstn (a + b) l = firstn a l ++ firstn b (skipn a l).
Proof. revert l; induction a as [|a IH]; intros [|x l]; simpl; auto; [now rewrite firstn_nil|]. now rewrite IH. Qed.

Lemma firstn_min {A} (l : list A) n : firstn (Nat.min n (length l)) l = firstn n l.
Proof.
  destruct (le_lt_dec n (length l)).
  - now rewrite Nat.min_l by lia.
  - rewrite Nat.min_r by lia. rewrite firstn_all. symmetry. apply firstn_all2. lia.
Qed.

Lemma write_at_end (d : bytes) off n :
  off <= length d ->
  write_at (firstn off d) off (firstn (S n) (skipn off d)) = firstn (off + length (firstn (S n) (skipn off d))) d.
Proof.
  intros H. rewrite firstn_add, firstn_length, firstn_min. unfold write_at.
  rewrite (@firstn_all2 ascii off (firstn off d)) by (rewrite firstn_length; lia). f_equal.
  rewrite (firstn_length off d).
  replace (off - off `min` length d) with 0 by lia. cbn [repeat app].
  rewrite (@skipn_all2 ascii (off + _) (firstn off d)) by (rewrite (firstn_length off d); lia). now rewrite app_nil_r.
Qed.

Lemma single_inv_step m0 s e : single_inv m0 s -> single_inv m0 (sstep s e).
Proof.
  destruct s as [m ps], e as [i a]. intros (r & Hps & H). simpl in *. subst ps.
  unfold sstep; simpl. destruct i as [|i]; [|exists r; auto]. simpl.
  assert (NP : forall k, firstn k (r_dir r) <> r_path r).
  { intros k E. apply (f_equal (@length _)) in E. unfold r_path in E.
    rewrite firstn_length, app_length in E. simpl in E. lia. }
  unfold rstep. destruct a as [n| |].
  - destruct (r_st r) as [k| |off| | |] eqn:St.
    + destruct (length (r_dir r) <=? k); [exists (at_st r SOpen); auto|].
      destruct (m !! firstn (S k) (r_dir r)) as [[b|]|] eqn:E; simpl.
      * exists (at_st r SOpen); auto.
      * exists (at_st r (SMkdir (S k))); auto.
      * exists (at_st r (SMkdir (S k))). split; [reflexivity|]. simpl. unfold r_path at 1. simpl. fold (r_path r).
        rewrite lookup_insert_ne; [exact H|apply NP].
    + destruct (fs_write m (r_path r) []) as [m'|] eqn:W; simpl.
      * apply fs_write_some in W as (-> & _ & _ & _). exists (at_st r (SWrite 0)). split; [reflexivity|].
        simpl. rewrite !r_path_at. split; [lia|]. apply lookup_insert.
      * exists (at_st r SFailed); simpl; auto.
    + destruct H as [Hl H]. destruct (length (r_data r) <=? off) eqn:Le.
      * apply Nat.leb_le in Le. exists (at_st r SDone). split; [reflexivity|]. simpl. rewrite !r_path_at, H.
        now rewrite firstn_all2 by exact Le.
      * apply Nat.leb_gt in Le. rewrite H.
        eexists. split; [reflexivity|]. cbn [r_st at_st fst snd r_data]. rewrite !r_path_at. split.
        -- rewrite chunk_length. lia.
        -- rewrite lookup_insert. do 2 f_equal. now apply write_at_end.
    + exists r. rewrite St. auto.
    + exists r. rewrite St. auto.
    + exists r. rewrite St. auto.
  - destruct (r_st r) as [k| |off| | |] eqn:St; try (exists r; rewrite St; auto; fail).
    + exists (at_st r SOpen); auto.
    + exists (at_st r SFailed); simpl; auto.
    + exists (at_st r SFailed); split; [reflexivity|]; simpl. right. exists off. apply H.
  - destruct (r_st r) as [k| |off| | |] eqn:St; try (exists r; rewrite St; auto; fail).
    + exists (at_st r SKilled); simpl; auto.
    + exists (at_st r SKilled); simpl; auto.
    + exists (at_st r SKilled); split; [reflexivity|]; simpl. right. exists off. apply H.
Qed.

Lemma single_run m dir x sched :
  let m' := (srun (start m [(dir, x)]) sched).1 in
  m' !! (dir ++ [corpus_name x]) = m !! (dir ++ [corpus_name x]) \/
  exists off, m' !! (dir ++ [corpus_name x]) = Some (File (firstn off x)).
Proof.
  assert (S : single_inv m (srun (start m [(dir, x)]) sched)).
  { assert (S0 : single_inv m (start m [(dir, x)])).
    { exists (Rec dir x (SMkdir 0)). split; reflexivity. }
    revert S0. generalize (start m [(dir, x)]). induction sched as [|e sched IH]; intros s S0; simpl; [exact S0|].
    apply IH, single_inv_step, S0. }
  pose proof (srun_static (start m [(dir, x)]) sched) as St. rewrite start_static in St.
  destruct S as (r & E & H). rewrite E in St. injection St as St1 St2.
  unfold r_path in H. rewrite St1, St2 in H. simpl.
  destruct (r_st r); auto.
  - right. exists off. apply H.
  - right. exists (length x). rewrite firstn_all. exact H.
Qed.

(** Every other path: created directories aside, nothing changes. *)
Lemma sstep_frame s e p n :
  s.1 !! p = Some n -> (forall r, r ∈ s.2 -> p <> r_path r) -> (sstep s e).1 !! p = Some n.
Proof.
  destruct s as [m ps], e as [i a]. simpl. intros H N. unfold sstep; simpl.
  destruct (ps !! i) as [r|] eqn:L; [|exact H].
  assert (Nr : p <> r_path r) by (apply N, elem_of_list_lookup; eauto).
  unfold rstep. destruct a as [k| |]; destruct (r_st r) as [j| |off| | |]; simpl; auto.
  - destruct (length (r_dir r) <=? j); [exact H|].
    destruct (m !! firstn (S j) (r_dir r)) as [[b|]|] eqn:E; simpl; auto.
    rewrite lookup_insert_ne; [exact H|]. intros <-. congruence.
  - destruct (fs_write m (r_path r) []) as [m'|] eqn:W; simpl; auto.
    apply fs_write_some in W as (-> & _). rewrite lookup_insert_ne by congruence. exact H.
  - destruct (length (r_data r) <=? off); [exact H|].
    destruct (m !! r_path r) as [[b|]|] eqn:E; simpl; auto.
    rewrite lookup_insert_ne by congruence. exact H.
Qed.

Lemma paths_static (ps ps' : list recorder) r :
  map (fun r => (r_dir r, r_data r)) ps = map (fun r => (r_dir r, r_data r)) ps' ->
  r ∈ ps -> exists r', r' ∈ ps' /\ r_path r' = r_path r /\ r_dir r' = r_dir r.
Proof.
  intros E I. apply elem_of_list_In in I. apply (in_map (fun r => (r_dir r, r_data r))) in I.
  rewrite E in I. apply in_map_iff in I as (r' & [= E1 E2] & I). exists r'.
  split; [now apply elem_of_list_In|]. unfold r_path. rewrite E1, E2. auto.
Qed.

Lemma srun_frame m h sched p n :
  m !! p = Some n -> (forall d x, In (d, x) h -> p <> d ++ [corpus_name x]) ->
  (srun (start m h) sched).1 !! p = Some n.
Proof.
  intros H N.
  assert (N' : forall r, r ∈ (start m h).2 -> p <> r_path r).
  { intros r I. apply start_elem in I as [I _]. apply N, I. }
  clear N. revert N'. assert (H' : (start m h).1 !! p = Some n) by exact H. revert H'.
  generalize (start m h). clear H. induction sched as [|e sched IH]; intros s H N; simpl; [exact H|].
  apply IH; [apply sstep_frame; assumption|].
  intros r I. destruct (paths_static _ _ r (sstep_static s e) I) as (r' & I' & E & _).
  rewrite <- E. apply N, I'.
Qed.

(** * No failure without a cause *)

Definition calm (e : nat * action) : Prop := exists n, e.2 = Go n.

Definition ok_inv (s : sys) : Prop :=
  (forall r, r ∈ s.2 -> usable s.1 (r_dir r)) /\
  (forall r q x, r ∈ s.2 -> q ∈ s.2 -> ~ under (r_dir r ++ [corpus_name x]) (r_dir q)) /\
  (forall r, r ∈ s.2 ->
     match r_st r with
     | SMkdir k => k <= length (r_dir r) /\ forall q, q <> [] -> is_prefix q (firstn k (r_dir r)) = true -> s.1 !! q = Some Dir
     | SOpen => is_dir s.1 (r_dir r) = true
     | SWrite _ => exists b, s.1 !! r_path r = Some (File b)
     | SDone => True
     | SFailed | SKilled => False
     end).

Lemma firstn_prefix {A} (eqd : forall a b : A, {a = b} + {a <> b}) (l : list A) k : exists r, l = firstn k l ++ r.
Proof. exists (skipn k l). symmetry. apply firstn_skipn. Qed.

Lemma under_firstn (d : path) k : under (firstn k d) d.
Proof. exists (skipn k d). symmetry. apply firstn_skipn. Qed.

Lemma is_prefix_firstn_S q (d : path) k :
  is_prefix q (firstn (S k) d) = true -> is_prefix q (firstn k d) = true \/ q = firstn (S k) d.
Proof.
  revert q k; induction d as [|c d IH]; intros q k H; simpl in *.
  - destruct q; [left; now destruct k|discriminate].
  - destruct q as [|c' q]; [left; reflexivity|]. simpl in H.
    destruct (str_dec c' c) as [->|]; [|discriminate].
    destruct k as [|k].
    + simpl in *. destruct q; [right; reflexivity|discriminate].
    + destruct (IH q k H) as [H'|H'].
      * left. simpl. destruct (str_dec c c); [exact H'|contradiction].
      * right. simpl in *. congruence.
Qed.

Lemma path_not_prefix r (d : path) : ~ under (r_path r) d -> forall k, firstn k d <> r_path r.
Proof. intros H k E. apply H. rewrite <- E. apply under_firstn. Qed.

Lemma is_dir_lookup m d : is_dir m d = true <-> d = [] \/ m !! d = Some Dir.
Proof.
  unfold is_dir. destruct d as [|c d]; [split; auto|].
  destruct (m !! (c :: d)) as [[b|]|]; split; auto; try discriminate; intros [H|H]; congruence.
Qed.

Lemma ok_step s e : calm e -> ok_inv s -> ok_inv (sstep s e).
Proof.
  destruct s as [m ps], e as [i a]. intros [n E] (U & S & P). simpl in E. subst a. simpl in *.
  unfold sstep; simpl. destruct (ps !! i) as [r|] eqn:L; [|split; [|split]; assumption].
  assert (Ir : r ∈ ps) by (apply elem_of_list_lookup; eauto).
  (* generic re-establishment *)
  assert (G : forall m' st',
    (forall p, m' !! p = m !! p \/ (m' !! p = Some Dir /\ m !! p = None /\ exists k, p = firstn k (r_dir r)) \/
               (p = r_path r /\ m !! p <> Some Dir /\ exists b, m' !! p = Some (File b))) ->
    (match st' with
     | SMkdir k => k <= length (r_dir r) /\ forall q, q <> [] -> is_prefix q (firstn k (r_dir r)) = true -> m' !! q = Some Dir
     | SOpen => is_dir m' (r_dir r) = true
     | SWrite _ => exists b, m' !! r_path r = Some (File b)
     | SDone => True
     | SFailed | SKilled => False
     end) -> ok_inv (m', <[i := at_st r st']> ps)).
  { intros m' st' Hm Hst.
    assert (D : forall q, q ∈ <[i := at_st r st']> ps -> exists q0, q0 ∈ ps /\ r_dir q0 = r_dir q).
    { intros q I. apply (elem_update _ _ _ _ _ L) in I as [->|I]; [exists r|exists q]; auto. }
    assert (DirKeep : forall p, m !! p = Some Dir -> m' !! p = Some Dir).
    { intros p Hp. destruct (Hm p) as [E|[(E & _)|(E & E' & _)]]; congruence. }
    assert (FileKeep : forall p b, m !! p = Some (File b) -> exists b', m' !! p = Some (File b')).
    { intros p b Hp. destruct (Hm p) as [E|[(_ & E & _)|(_ & _ & E)]]; [exists b; congruence|congruence|exact E]. }
    split; [|split]; simpl.
    - intros q I. destruct (D q I) as (q0 & I0 & <-). destruct (U q0 I0) as [C Nd]. split.
      + intros p b Hp Lp. destruct (Hm p) as [E|[(E & _)|(-> & _)]].
        * apply (C p b Hp). congruence.
        * congruence.
        * apply (S r q0 (r_data r) Ir I0). now apply is_prefix_spec.
      + intros x Lx. destruct (Hm (r_dir q0 ++ [corpus_name x])) as [E|[(E & _ & k & Ek)|(_ & _ & b & E)]].
        * apply (Nd x). congruence.
        * apply (S q0 r x I0 Ir). rewrite Ek. apply under_firstn.
        * congruence.
    - intros q1 q2 x I1 I2. destruct (D q1 I1) as (p1 & J1 & <-). destruct (D q2 I2) as (p2 & J2 & <-).
      apply S; assumption.
    - intros q I. apply (elem_update _ _ _ _ _ L) in I as [->|I]; [exact Hst|].
      specialize (P q I). destruct (r_st q) as [k| |off| | |]; auto.
      + destruct P as [Pk P]. split; [exact Pk|]. intros p Np Hp. apply DirKeep, P; assumption.
      + apply is_dir_lookup in P as [P|P]; apply is_dir_lookup; [left; exact P|right; apply DirKeep, P].
      + destruct P as [b P]. apply (FileKeep _ b P). }
  assert (Id : ok_inv (m, <[i := r]> ps)).
  { rewrite list_insert_id by exact L. split; [|split]; assumption. }
  pose proof (P r Ir) as Pr. unfold rstep. destruct (r_st r) as [k| |off| | |] eqn:St; try exact Id.
  - destruct Pr as [Pk Pr]. destruct (length (r_dir r) <=? k) eqn:Le.
    + apply Nat.leb_le in Le. apply G; [auto|]. apply is_dir_lookup.
      destruct (r_dir r) as [|c d] eqn:Ed; [left; reflexivity|]. right. apply Pr; [discriminate|].
      rewrite firstn_all2 by exact Le. apply is_prefix_spec. exists []. now rewrite app_nil_r.
    + apply Nat.leb_gt in Le. destruct (m !! firstn (Datatypes.S k) (r_dir r)) as [[b|]|] eqn:E.
      * exfalso. destruct (U r Ir) as [C _]. refine (C (firstn (Datatypes.S k) (r_dir r)) b _ E). apply is_prefix_spec, under_firstn.
      * apply G; [auto|]. split; [lia|]. intros q Nq Hq.
        apply is_prefix_firstn_S in Hq as [Hq| ->]; [apply Pr; assumption|exact E].
      * apply G.
        -- intros p. destruct (decide (firstn (Datatypes.S k) (r_dir r) = p)) as [<-|Hne].
           ++ right; left. rewrite lookup_insert. eauto.
           ++ left. now rewrite lookup_insert_ne.
        -- split; [lia|]. intros q Nq Hq.
           apply is_prefix_firstn_S in Hq as [Hq| ->]; [|apply lookup_insert].
           rewrite lookup_insert_ne; [apply Pr; assumption|]. intros Eq. rewrite Eq in E.
           rewrite (Pr q Nq Hq) in E. discriminate.
  - assert (Ne : r_path r <> []) by (unfold r_path; destruct (r_dir r); discriminate).
    assert (Nd : m !! r_path r <> Some Dir) by (apply (U r Ir)).
    rewrite fs_write_ok; [|unfold r_path; rewrite parent_snoc; exact Pr|exact Ne|exact Nd].
    apply G.
    + intros p. destruct (decide (r_path r = p)) as [<-|Hne].
      * right; right. rewrite lookup_insert. eauto.
      * left. now rewrite lookup_insert_ne.
    + rewrite lookup_insert. eauto.
  - destruct (length (r_data r) <=? off); [apply G; auto|].
    destruct Pr as [b Pr]. rewrite Pr. apply G.
    + intros p. destruct (decide (r_path r = p)) as [<-|Hne].
      * right; right. rewrite lookup_insert. split; [reflexivity|]. split; [congruence|eauto].
      * left. now rewrite lookup_insert_ne.
    + rewrite lookup_insert. eauto.
Qed.

Lemma conc_no_failure m h sched r :
  (forall d x, In (d, x) h -> usable m d) -> separate h -> Forall calm sched ->
  r ∈ (srun (start m h) sched).2 -> r_st r <> SFailed /\ r_st r <> SKilled.
Proof.
  intros U S C I.
  assert (O : ok_inv (start m h)).
  { split; [|split].
    - intros q Iq. apply start_elem in Iq as [Iq _]. apply (U _ _ Iq).
    - intros q q' x Iq Iq'. apply start_elem in Iq as [Iq _]. apply start_elem in Iq' as [Iq' _].
      apply (S _ _ _ _ x Iq Iq').
    - intros q Iq. apply start_elem in Iq as [_ ->]. split; [lia|].
      intros p Np Hp. simpl in Hp. destruct p; [contradiction|discriminate]. }
  assert (O' : ok_inv (srun (start m h) sched)).
  { clear - O C. revert O. generalize (start m h). induction C as [|e sched Ce C IH]; intros s O; simpl; [exact O|].
    apply IH, ok_step; assumption. }
  destruct O' as (_ & _ & P). specialize (P r I).
  destruct (r_st r); split; congruence || contradiction.
Qed.

(** * Termination: every executed system call of an unfinished recorder makes progress *)

Definition work (r : recorder) : nat :=
  match r_st r with
  | SMkdir k => S (length (r_dir r) - k) + 2 + length (r_data r)
  | SOpen => 2 + length (r_data r)
  | SWrite off => S (length (r_data r) - off)
  | _ => 0
  end.

Definition finished (r : recorder) : Prop := r_st r = SDone \/ dead r.

Lemma rstep_progress m r a : ~ finished r -> work (rstep m r a).2 < work r.
Proof.
  intros NF. unfold rstep, work.
  destruct a as [n| |]; destruct (r_st r) as [k| |off| | |] eqn:St;
    try (exfalso; apply NF; unfold finished, dead; rewrite St; tauto).
  - destruct (length (r_dir r) <=? k) eqn:Le; [simpl; lia|]. apply Nat.leb_gt in Le.
    destruct (m !! firstn (S k) (r_dir r)) as [[b|]|]; simpl; lia.
  - destruct (fs_write m (r_path r) []); simpl; lia.
  - destruct (length (r_data r) <=? off) eqn:Le; [simpl; lia|]. apply Nat.leb_gt in Le.
    destruct (m !! r_path r) as [[b|]|]; cbn [snd at_st r_st r_data]; try lia.
    rewrite chunk_length. lia.
  - simpl; lia.
  - simpl; lia.
  - simpl; lia.
  - simpl; lia.
  - simpl; lia.
  - simpl; lia.
Qed.

(** * Directories stay usable whatever happens *)

Lemma sstep_change s e p :
  (sstep s e).1 !! p = s.1 !! p \/
  exists r, r ∈ s.2 /\
    (((sstep s e).1 !! p = Some Dir /\ exists k, p = firstn k (r_dir r)) \/
     (p = r_path r /\ exists b, (sstep s e).1 !! p = Some (File b))).
Proof.
  destruct s as [m ps], e as [i a]. unfold sstep; simpl.
  destruct (ps !! i) as [r|] eqn:L; [|auto].
  assert (Ir : r ∈ ps) by (apply elem_of_list_lookup; eauto).
  unfold rstep. destruct a as [n| |]; destruct (r_st r) as [k| |off| | |]; simpl; auto.
  - destruct (length (r_dir r) <=? k); [auto|].
    destruct (m !! firstn (S k) (r_dir r)) as [[b|]|] eqn:E; simpl; auto.
    destruct (decide (firstn (S k) (r_dir r) = p)) as [<-|Hne].
    + right. exists r. split; [exact Ir|]. left. rewrite lookup_insert. eauto.
    + left. now rewrite lookup_insert_ne.
  - destruct (fs_write m (r_path r) []) as [m'|] eqn:W; simpl; auto.
    apply fs_write_some in W as (-> & _).
    destruct (decide (r_path r = p)) as [<-|Hne].
    + right. exists r. split; [exact Ir|]. right. rewrite lookup_insert. eauto.
    + left. now rewrite lookup_insert_ne.
  - destruct (length (r_data r) <=? off); [auto|].
    destruct (m !! r_path r) as [[b|]|] eqn:E; simpl; auto.
    destruct (decide (r_path r = p)) as [<-|Hne].
    + right. exists r. split; [exact Ir|]. right. rewrite lookup_insert. eauto.
    + left. now rewrite lookup_insert_ne.
Qed.

Definition dirs_ok (h : list (path * bytes)) (s : sys) : Prop :=
  (forall r, r ∈ s.2 -> In (r_dir r, r_data r) h) /\ forall d x, In (d, x) h -> usable s.1 d.

Lemma dirs_ok_step h s e : separate h -> dirs_ok h s -> dirs_ok h (sstep s e).
Proof.
  intros S [I U]. split.
  - intros r Ir. apply elem_of_list_In, (in_map (fun r => (r_dir r, r_data r))) in Ir.
    rewrite sstep_static in Ir. apply in_map_iff in Ir as (r' & [= <- <-] & I').
    apply I. now apply elem_of_list_In.
  - intros d x Id. destruct (U d x Id) as [C N]. split.
    + intros p b P L. destruct (sstep_change s e p) as [E|(r & Ir & [(E & _)|(-> & _)])].
      * apply (C p b P). congruence.
      * congruence.
      * apply (S _ _ _ _ (r_data r) (I r Ir) Id). now apply is_prefix_spec.
    + intros y L. destruct (sstep_change s e (d ++ [corpus_name y])) as [E|(r & Ir & [(_ & k & E)|(_ & b & E)])].
      * apply (N y). congruence.
      * apply (S _ _ _ _ y Id (I r Ir)). rewrite E. apply under_firstn.
      * congruence.
Qed.

Lemma dirs_ok_run m h sched :
  (forall d x, In (d, x) h -> usable m d) -> separate h -> dirs_ok h (srun (start m h) sched).
Proof.
  intros U S.
  assert (D : dirs_ok h (start m h)).
  { split; [|exact U]. intros r I. apply start_elem in I. apply I. }
  revert D. generalize (start m h). induction sched as [|e sched IH]; intros s D; simpl; [exact D|].
  apply IH, dirs_ok_step; assumption.
Qed.

(** C05: recording again repairs. *)
Lemma conc_repair m h sched d x :
  (forall d x, In (d, x) h -> usable m d) -> separate h -> In (d, x) h ->
  let s := srun (start m h) sched in
  (write_data s.1 d x).2 = true /\ (write_data s.1 d x).1 !! (d ++ [corpus_name x]) = Some (File x).
Proof.
  intros U S I. destruct (dirs_ok_run m h sched U S) as [_ U']. simpl.
  destruct (write_data_ok _ d x (U' d x I)) as (A & _ & B). auto.
Qed.

Lemma separate_single d h : (forall e, In e h -> e.1 = d) -> separate h.
Proof.
  intros H d1 x1 d2 x2 y I1 I2 [r E]. apply H in I1, I2. simpl in *. subst d1 d2.
  apply (f_equal (@length _)) in E. rewrite !app_length in E. simpl in E. lia.
Qed.
