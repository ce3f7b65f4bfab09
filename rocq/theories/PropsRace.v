(** C104: replaying a recording while it is being made. *)
From Coq Require Import List Ascii String Bool Arith NArith Lia.
From stdpp Require Import gmap strings list.
From Verif Require Import Base Utf8 Dirs Sha1 Fs Write WriteConc Race Env Harness.
From Verif Require MacroArgs Serde SerdeFacts Postcard Bincode EndToEnd PropsEndToEnd PropsSerde.
Import ListNotations.
Local Open Scope nat_scope.
Module E := EndToEnd.
Module PE := PropsEndToEnd.

(** * Specification *)

(** [p] is the beginning of [x]. *)
Definition prefix_of (p x : bytes) : Prop := exists more, x = p ++ more.

(** Nothing but a beginning of [x] is in the file [p]. *)
Definition begun (m : fs) (p : path) (x : bytes) : Prop :=
  match m !! p with Some (File b) => prefix_of b x | _ => True end.

(** How many recordings in [h] are of the file [p]. *)
Definition recordings_of (p : path) (h : list (path * bytes)) : list (path * bytes) :=
  List.filter (fun dx => if decide (dx.1 ++ [corpus_name dx.2] = p) then true else false) h.

(** A reader that has just opened the file. *)
Definition opened_now : reader := Reader [] false.

(** * Proofs *)

Lemma prefix_firstn p x : prefix_of p x <-> exists k, p = firstn k x.
Proof.
  split.
  - intros (more & ->). exists (length p). now rewrite firstn_app, Nat.sub_diag, firstn_all, firstn_O, app_nil_r.
  - intros (k & ->). exists (skipn k x). symmetry. apply firstn_skipn.
Qed.

Lemma begun_partial m p x : begun m p x <-> partial_at m p x.
Proof.
  unfold begun, partial_at. split.
  - intros H b B. rewrite B in H. now apply prefix_firstn.
  - intros H. destruct (m !! p) as [[b|]|]; [|exact I..]. now apply prefix_firstn, H.
Qed.

Section Codec.
  Import Serde SerdeFacts.

  Lemma truncated c env (La : laws c) (Sc : strict c) f t v p more b w s' :
    wt env t v -> enc c v = p ++ more -> more <> [] -> dec c env f t (p, b) <> Ok w s'.
  Proof.
    intros W En M D. destruct s' as [s' b']. pose proof (dec_extends c env Sc f t _ _ _ _ _ more D) as D2. rewrite <- En in D2.
    destruct (wt_wtn env t v W) as (g & Wg).
    pose proof (reads_value c env La g t v Wg [] b) as R. rewrite app_nil_r in R.
    assert (A : dec c env (f + g) t (enc c v, b) = Ok w (s' ++ more, b')).
    { rewrite (dec_le c env f (f + g)); [exact D2|lia|]. now rewrite D2. }
    rewrite (dec_le c env g (f + g)) in A; [|lia|rewrite R; destruct (spends c b _); discriminate].
    rewrite R in A. destruct (spends c b _); [|discriminate]. injection A as _ Z _. symmetry in Z. apply app_eq_nil in Z as [_ Z]. contradiction.
  Qed.

  (** ** Reading zeros past the end *)

  Definition zeros (n : nat) : bytes := repeat zero n.

  Definition pads {A} (xt xf : rd A) : Prop :=
    forall s b a s' b', xt (s, b) = Ok a (s', b') ->
      exists n, xf (s ++ zeros n, b) = Ok a (s', b') /\ (n <> 0 -> s' = []).

  Lemma pads_ret {A} (a : A) : pads (rret a) (rret a).
  Proof. intros s b a' s' b' [= <- <- <-]. exists 0. cbn. rewrite app_nil_r. split; [reflexivity|lia]. Qed.

  Lemma pads_fail {A} : pads (@rfail A) rfail.
  Proof. intros s b a s' b' [=]. Qed.

  Lemma pads_bind {A B} (x y : rd A) (f g : A -> rd B) :
    pads x y -> extends y -> (forall a, pads (f a) (g a)) -> (forall a, consumes (f a)) -> pads (rbind x f) (rbind y g).
  Proof.
    intros Px Ey Pf Cf s b v s2 b2 E. apply rbind_ok in E as (a & [s1 b1] & E1 & E2).
    destruct (Px _ _ _ _ _ E1) as (n1 & R1 & Z1). destruct (Pf a _ _ _ _ _ E2) as (n2 & R2 & Z2).
    exists (n1 + n2). replace (zeros (n1 + n2)) with (zeros n1 ++ zeros n2) by (symmetry; apply repeat_app).
    rewrite app_assoc. split.
    - unfold rbind. rewrite (Ey _ _ _ _ _ (zeros n2) R1). exact R2.
    - intros N. destruct n2 as [|n2]; [|apply Z2; lia]. destruct (Cf a _ _ _ _ _ E2) as (q & Q). rewrite Z1 in Q by lia.
      symmetry in Q. now apply app_eq_nil in Q as [_ Q].
  Qed.

  Lemma pads_repeat {A} (x y : rd A) n : pads x y -> extends y -> consumes x -> pads (rrepeat x n) (rrepeat y n).
  Proof.
    intros P Ey C. induction n as [|n IH]; cbn [rrepeat]; [apply pads_ret|].
    apply pads_bind; [exact P|exact Ey| |].
    - intros a. apply pads_bind; [exact IH|now apply extends_repeat|intros l; apply pads_ret|intros l; apply consumes_ret].
    - intros a. apply consumes_bind; [now apply consumes_repeat|intros l; apply consumes_ret].
  Qed.

  Lemma pads_list {A T} (x y : T -> rd A) ts :
    (forall t, pads (x t) (y t)) -> (forall t, extends (y t)) -> (forall t, consumes (x t)) -> pads (rlist (map x ts)) (rlist (map y ts)).
  Proof.
    intros P Ey C. induction ts as [|t ts IH]; cbn [map rlist]; [apply pads_ret|].
    apply pads_bind; [apply P|apply Ey| |].
    - intros a. apply pads_bind; [exact IH| |intros l; apply pads_ret|intros l; apply consumes_ret].
      apply extends_list, List.Forall_forall. intros z I. apply in_map_iff in I as (t' & <- & _). apply Ey.
    - intros a. apply consumes_bind; [|intros l; apply consumes_ret].
      apply consumes_list, List.Forall_forall. intros z I. apply in_map_iff in I as (t' & <- & _). apply C.
  Qed.

  Lemma pads_take k n : pads (Postcard.take k n) (Postcard.take k n).
  Proof. intros s b a s' b' E. exists 0. cbn. rewrite app_nil_r. split; [exact E|lia]. Qed.

  Lemma pads_pop : pads (Postcard.pop true) (Postcard.pop false).
  Proof.
    intros s b a s' b' E. unfold Postcard.pop in *. destruct s as [|c s].
    - injection E as <- <- <-. exists 1. now split.
    - injection E as <- <- <-. exists 0. cbn. rewrite app_nil_r. split; [reflexivity|lia].
  Qed.

  Lemma varint_facts k last :
    pads (Postcard.varint true k last) (Postcard.varint false k last) /\
    extends (Postcard.varint false k last) /\ consumes (Postcard.varint true k last).
  Proof.
    induction k as [|k (P & X & C)]; cbn [Postcard.varint].
    { split; [apply pads_fail|]. split; [apply extends_fail|apply consumes_fail]. }
    assert (Cf : forall a, consumes (if (byte a <? 128)%N then (if (k =? 0) && (last <? byte a)%N then rfail else rret (byte a))
      else rbind (Postcard.varint true k last) (fun r => rret (byte a - 128 + 128 * r)%N))).
    { intros a. destruct (byte a <? 128)%N; [destruct (_ && _); [apply consumes_fail|apply consumes_ret]|].
      apply consumes_bind; [exact C|intros r; apply consumes_ret]. }
    pose proof (x_byte _ (Postcard.postcard_strict false false eq_refl)) as Xp. cbn [d_byte Postcard.postcard] in Xp.
    pose proof (s_byte _ (Postcard.postcard_sane true false)) as Cp. cbn [d_byte Postcard.postcard] in Cp.
    split; [|split].
    - apply pads_bind; [apply pads_pop|exact Xp| |exact Cf].
      intros a. destruct (byte a <? 128)%N; [destruct (_ && _); [apply pads_fail|apply pads_ret]|].
      apply pads_bind; [exact P|exact X|intros r; apply pads_ret|intros r; apply consumes_ret].
    - apply extends_bind; [exact Xp|]. intros a. destruct (byte a <? 128)%N; [destruct (_ && _); [apply extends_fail|apply extends_ret]|].
      apply extends_bind; [exact X|intros r; apply extends_ret].
    - apply consumes_bind; [exact Cp|exact Cf].
  Qed.

  Lemma dec_pads k env : forall f t, pads (dec (Postcard.postcard true k) env f t) (dec (Postcard.postcard false k) env f t).
  Proof.
    pose proof (Postcard.postcard_strict false k eq_refl) as X. pose proof (Postcard.postcard_sane true k) as C.
    assert (Pu : forall w, pads (d_uint (Postcard.postcard true k) w) (d_uint (Postcard.postcard false k) w)).
    { intros w. apply varint_facts. }
    assert (Pb : pads (d_bool (Postcard.postcard true k)) (d_bool (Postcard.postcard false k))).
    { apply pads_bind; [apply pads_pop|apply X| |]; intros a; (destruct (byte a =? 0)%N; [apply pads_ret || apply consumes_ret|]);
        (destruct (byte a =? 1)%N; [apply pads_ret || apply consumes_ret|apply pads_fail || apply consumes_fail]). }
    assert (Xb : extends (d_bool (Postcard.postcard false k))).
    { apply extends_bind; [apply X|]. intros a. destruct (byte a =? 0)%N; [apply extends_ret|].
      destruct (byte a =? 1)%N; [apply extends_ret|apply extends_fail]. }
    induction f as [|f IH]; intros t; [intros s b a s' b' E; discriminate|].
    pose proof (fun t => dec_extends _ env X f t) as DX. pose proof (fun t => dec_consumes _ env C f t) as DC.
    destruct t; cbn [dec].
    - apply pads_bind; [exact Pb|exact Xb|intros a; apply pads_ret|intros a; apply consumes_ret].
    - apply pads_bind; [apply pads_pop|apply X|intros a; apply pads_ret|intros a; apply consumes_ret].
    - apply pads_bind; [apply pads_pop|apply X|intros a; apply pads_ret|intros a; apply consumes_ret].
    - apply pads_bind; [apply Pu|apply X|intros a; apply pads_ret|intros a; apply consumes_ret].
    - apply pads_bind; [apply Pu|apply X|intros a; apply pads_ret|intros a; apply consumes_ret].
    - apply pads_bind; [apply pads_take|apply X|intros a; apply pads_ret|intros a; apply consumes_ret].
    - apply pads_bind; [apply pads_take|apply X|intros a; apply pads_ret|intros a; apply consumes_ret].
    - apply pads_bind; [|apply X|intros a; apply pads_ret|intros a; apply consumes_ret].
      cbn [d_char Postcard.postcard]. unfold Postcard.get_char. apply pads_bind; [apply Pu|apply (x_uint _ X W64)| |].
      + intros n. destruct (4 <? n)%N; [apply pads_fail|]. apply pads_bind; [apply pads_take|apply (x_block _ X)| |];
          intros a; (destruct (valid_utf8 a); [|apply pads_fail || apply consumes_fail]);
          (destruct (Postcard.first_char a); [apply pads_ret || apply consumes_ret|apply pads_fail || apply consumes_fail]).
      + intros n. destruct (4 <? n)%N; [apply consumes_fail|]. apply consumes_bind; [apply (s_block _ C)|].
        intros a; (destruct (valid_utf8 a); [|apply consumes_fail]). destruct (Postcard.first_char a); [apply consumes_ret|apply consumes_fail].
    - apply pads_bind; [apply Pu|apply X| |].
      + intros n. apply pads_bind; [apply pads_take|apply X| |]; intros a; (destruct (valid_utf8 a);
          [apply pads_ret || apply consumes_ret|apply pads_fail || apply consumes_fail]).
      + intros n. apply consumes_bind; [apply C|]. intros a; (destruct (valid_utf8 a); [apply consumes_ret|apply consumes_fail]).
    - apply pads_bind; [apply Pu|apply X| |].
      + intros n. apply pads_bind; [apply pads_take|apply X|intros a; apply pads_ret|intros a; apply consumes_ret].
      + intros n. apply consumes_bind; [apply C|]. intros a; apply consumes_ret.
    - apply pads_ret.
    - apply pads_bind; [exact Pb|exact Xb| |].
      + intros []; [|apply pads_ret]. apply pads_bind; [apply IH|apply DX|intros a; apply pads_ret|intros a; apply consumes_ret].
      + intros []; [|apply consumes_ret]. apply consumes_bind; [apply DC|intros a; apply consumes_ret].
    - apply pads_bind; [apply Pu|apply X| |].
      + intros n. apply pads_bind; [apply pads_repeat; [apply IH|apply DX|apply DC]|apply extends_repeat, DX|intros a; apply pads_ret|intros a; apply consumes_ret].
      + intros n. apply consumes_bind; [apply consumes_repeat, DC|intros a; apply consumes_ret].
    - apply pads_bind; [apply pads_list; auto| |intros a; apply pads_ret|intros a; apply consumes_ret].
      apply extends_list, List.Forall_forall. intros z I. apply in_map_iff in I as (t' & <- & _). apply DX.
    - match goal with |- pads (rbind _ (fun _ => rbind (rrepeat ?x _) _)) (rbind _ (fun _ => rbind (rrepeat ?y _) _)) =>
        assert (G : pads x y /\ extends y /\ consumes x) end.
      { split; [|split].
        - apply pads_bind; [apply IH|apply DX| |].
          + intros x. apply pads_bind; [apply IH|apply DX|intros y; apply pads_ret|intros y; apply consumes_ret].
          + intros x. apply consumes_bind; [apply DC|intros y; apply consumes_ret].
        - apply extends_bind; [apply DX|]. intros x. apply extends_bind; [apply DX|intros y; apply extends_ret].
        - apply consumes_bind; [apply DC|]. intros x. apply consumes_bind; [apply DC|intros y; apply consumes_ret]. }
      destruct G as (G1 & G2 & G3). apply pads_bind; [apply Pu|apply X| |].
      + intros n. apply pads_bind; [now apply pads_repeat|now apply extends_repeat|intros a; apply pads_ret|intros a; apply consumes_ret].
      + intros n. apply consumes_bind; [now apply consumes_repeat|intros a; apply consumes_ret].
    - apply pads_bind; [apply Pu|apply X| |].
      + intros n. destruct (nth_error ts (N.to_nat n)) as [t|]; [|apply pads_fail].
        apply pads_bind; [apply IH|apply DX|intros a; apply pads_ret|intros a; apply consumes_ret].
      + intros n. destruct (nth_error ts (N.to_nat n)) as [t|]; [|apply consumes_fail].
        apply consumes_bind; [apply DC|intros a; apply consumes_ret].
    - apply IH.
  Qed.
End Codec.

Lemma lookup_start m h i r : (start m h).2 !! i = Some r ->
  exists dx, nth_error h i = Some dx /\ r_dir r = dx.1 /\ r_data r = dx.2 /\ r_st r = SMkdir 0.
Proof.
  unfold start. cbn [snd]. rewrite list_lookup_fmap. destruct (h !! i) as [dx|] eqn:E; [|discriminate]. cbn. intros [= <-].
  exists dx. split; [|destruct dx; now repeat split]. rewrite <- E. clear. revert i. induction h as [|a h IH]; intros [|i]; auto. apply IH.
Qed.

Lemma recordings_unique p h i j dx dy :
  length (recordings_of p h) <= 1 -> nth_error h i = Some dx -> nth_error h j = Some dy ->
  dx.1 ++ [corpus_name dx.2] = p -> dy.1 ++ [corpus_name dy.2] = p -> i = j.
Proof.
  unfold recordings_of. revert i j. induction h as [|d h IH]; intros i j L I J Px Py; [destruct i; discriminate|].
  assert (K : forall (g : list (path * bytes)) k e, nth_error g k = Some e -> e.1 ++ [corpus_name e.2] = p ->
    1 <= length (List.filter (fun dx => if decide (dx.1 ++ [corpus_name dx.2] = p) then true else false) g)).
  { clear. intros g k e E P. apply nth_error_In in E.
    assert (I : In e (List.filter (fun dx : path * bytes => if decide (dx.1 ++ [corpus_name dx.2] = p) then true else false) g)).
    { apply filter_In. split; [exact E|]. now rewrite decide_True. }
    destruct (List.filter _ g); [destruct I|cbn; lia]. }
  cbn [List.filter] in L. destruct i as [|i], j as [|j]; [reflexivity| | |].
  - cbn in I. injection I as ->. rewrite decide_True in L by exact Px. cbn [length] in L. pose proof (K h j dy J Py). lia.
  - cbn in J. injection J as ->. rewrite decide_True in L by exact Py. cbn [length] in L. pose proof (K h i dx I Px). lia.
  - f_equal. apply IH; [|exact I|exact J|exact Px|exact Py]. destruct (decide _) in L; cbn [length] in L; lia.
Qed.

Lemma entry_calls_decoded {A R} (u : user A R) e nt stdin a :
  In a (calls (fst (entry u e nt stdin))) -> u_decode u stdin = Decoded a.
Proof.
  unfold entry, entry_body, warn_first, input_args, output_args, output_ret, call.
  destruct (test_fuzz_enabled e); cbn; [|tauto].
  destruct (u_decode u stdin) as [b| |]; destruct (coverage_enabled e), nt, (display_enabled e), (replay_enabled e); cbn; try tauto;
    try (destruct (u_show_args u b); cbn; try tauto); destruct (u_target u b) as [r|]; cbn; try tauto;
    try (destruct (u_show_ret u r); cbn; try tauto); intros [->|[]]; reflexivity.
Qed.

(** * Theorems *)

(** C104: what a harness that was started on a recording has read of it is always a
    beginning of the recorded bytes, however its reads interleave with the writing, if a
    single recorder makes it (beside any number of recorders of other data). *)
Theorem C104_reader_sees_prefix :
  forall (m : fs) (h : list (path * bytes)) (p : path) (x : bytes) (es : list xevent),
    begun m p x -> (forall d y, In (d, y) h -> d ++ [corpus_name y] = p -> y = x) -> length (recordings_of p h) <= 1 ->
    prefix_of (rd_got (xrun p (start m h, opened_now) es).2) x.
Proof.
  intros m h p x es B D L. apply prefix_firstn.
  apply (xrun_prefix (alone p x) (fun _ => True)); [intros s e _; apply alone_step|now intros s []| |auto|now exists 0].
  split; [now apply begun_partial|]. split; [|split].
  - intros i r I P. apply lookup_start in I as ([d y] & I & Ed & Ey & _). unfold r_path in P. rewrite Ed, Ey in P. rewrite Ey.
    eapply D; [exact (nth_error_In _ _ I)|exact P].
  - intros i j r q I J P Q. apply lookup_start in I as (dx & I & Ed & Ey & _). apply lookup_start in J as (dy & J & Fd & Fy & _).
    unfold r_path in P, Q. rewrite Ed, Ey in P. rewrite Fd, Fy in Q. eapply recordings_unique; eauto.
  - intros i r off I P S0. apply lookup_start in I as (dx & _ & _ & _ & E). congruence.
Qed.
Print Assumptions C104_reader_sees_prefix.

(** C104: the same for any number of recorders of the same bytes, if no write is split. *)
Theorem C104_reader_sees_prefix_unsplit :
  forall (m : fs) (h : list (path * bytes)) (p : path) (x : bytes) (es : list xevent),
    begun m p x -> (forall d y, In (d, y) h -> d ++ [corpus_name y] = p -> y = x) ->
    (forall i n, In (XRec (i, Go n)) es -> length x <= S n) ->
    prefix_of (rd_got (xrun p (start m h, opened_now) es).2) x.
Proof.
  intros m h p x es B D W. apply prefix_firstn.
  apply (xrun_prefix (whole_inv p x) (whole x)); [intros s e; apply whole_step|now intros s []| | |now exists 0].
  - split; [now apply begun_partial|]. split.
    + intros i r I P. apply lookup_start in I as ([d y] & I & Ed & Ey & _). unfold r_path in P. rewrite Ed, Ey in P. rewrite Ey.
      eapply D; [exact (nth_error_In _ _ I)|exact P].
    + intros i r off I P S0. apply lookup_start in I as (dx & _ & _ & _ & E). congruence.
  - intros [i a] I n E. cbn in E. subst a. eapply W, I.
Qed.
Print Assumptions C104_reader_sees_prefix_unsplit.

(** C104: a reader of a finished recording gets all of it, with reads of any sizes. *)
Theorem C104_reader_complete :
  forall (m : fs) (p : path) (x : bytes) (ns : list nat),
    m !! p = Some (File x) ->
    let r := fold_left (read_step m p) ns opened_now in
    (rd_eof r = true -> rd_got r = x) /\ (length x < length ns -> rd_eof r = true).
Proof.
  intros m p x ns F r. subst r.
  assert (G : forall r, prefix_of (rd_got r) x -> (rd_eof r = true -> rd_got r = x) ->
    let q := fold_left (read_step m p) ns r in
    (rd_eof q = true -> rd_got q = x) /\ (length x < length (rd_got r) + length ns -> rd_eof q = true)).
  { induction ns as [|n ns IH]; intros r Pr Er; cbn [fold_left length].
    - split; [exact Er|]. destruct Pr as (more & ->). rewrite app_length. lia.
    - assert (St : (rd_eof r = true /\ read_step m p r n = r) \/ (rd_got r = x /\ read_step m p r n = Reader x true) \/
                   exists c k, prefix_of (rd_got r ++ c :: k) x /\ read_step m p r n = Reader (rd_got r ++ c :: k) false).
      { unfold read_step. rewrite F. destruct (rd_eof r) eqn:Ee; [now left|right]. destruct Pr as (more & ->).
        rewrite skipn_app, skipn_all, Nat.sub_diag, skipn_O. cbn [app]. destruct more as [|c more].
        - left. rewrite app_nil_r. now split.
        - right. exists c, (firstn n more). split; [|reflexivity]. exists (skipn n more). rewrite <- app_assoc. cbn. now rewrite firstn_skipn. }
      destruct St as [[Ee ->]|[[Eg ->]|(c & k & P2 & ->)]].
      + destruct (IH r Pr Er) as [A B]. split; [exact A|]. intros _. clear IH A B.
        assert (S : forall l, fold_left (read_step m p) l r = r).
        { induction l as [|y l IHl]; [reflexivity|]. cbn [fold_left]. replace (read_step m p r y) with r; [exact IHl|]. unfold read_step. now rewrite Ee. }
        now rewrite S.
      + assert (S : fold_left (read_step m p) ns (Reader x true) = Reader x true).
        { clear. induction ns as [|y l IHl]; [reflexivity|]. cbn [fold_left]. exact IHl. }
        rewrite S. now split.
      + specialize (IH (Reader (rd_got r ++ c :: k) false) P2 ltac:(discriminate)) as [A B]. split; [exact A|].
        intros L. apply B. cbn [rd_got]. rewrite app_length. cbn [length]. lia. }
  destruct (G opened_now) as [A B]; [now exists x|discriminate|]. split; [exact A|]. intros L. apply B. cbn. lia.
Qed.
Print Assumptions C104_reader_complete.

(** C104: a recording that is cut short decodes to nothing, if reading past the end is
    an error. *)
Theorem C104_truncated_never_decodes :
  forall (k : bool) (env : nat -> Serde.ty) (f : nat) (t : Serde.ty) (v w : Serde.val) (p more : bytes),
    Serde.wt env t v -> more <> [] ->
    (Postcard.serialize false k v = p ++ more -> Postcard.deserialize false k env f t p <> Postcard.Value w) /\
    (Bincode.serialize v = p ++ more -> Bincode.deserialize env f t p <> Postcard.Value w).
Proof.
  intros k env f t v w p more W N. split; intros Eq D.
  - unfold Postcard.deserialize in D. destruct (Serde.dec _ env f t _) as [v' s'| |] eqn:X; try discriminate.
    eapply truncated in X; [destruct X|apply Postcard.postcard_laws|now apply Postcard.postcard_strict|exact W|exact Eq|exact N].
  - unfold Bincode.deserialize in D. destruct (Serde.dec _ env f t _) as [v' s'| |] eqn:X; try discriminate.
    eapply truncated in X; [destruct X|apply Bincode.bincode_laws|apply Bincode.bincode_strict|exact W|exact Eq|exact N].
Qed.
Print Assumptions C104_truncated_never_decodes.

(** C104: if the end of the input reads as zeros, what decodes is what some number of
    zeros after the input make of it. *)
Theorem C104_zero_padding :
  forall (k : bool) (env : nat -> Serde.ty) (f : nat) (t : Serde.ty) (p : bytes) (w : Serde.val),
    Postcard.deserialize true k env f t p = Postcard.Value w ->
    exists n, Postcard.deserialize false k env f t (p ++ repeat zero n) = Postcard.Value w.
Proof.
  intros k env f t p w D. unfold Postcard.deserialize in *. destruct (Serde.dec _ env f t (p, _)) as [v [s' b']| |] eqn:X; try discriminate.
  injection D as ->. destruct (dec_pads k env f t _ _ _ _ _ X) as (n & Y & _). exists n. unfold zeros in Y. now rewrite Y.
Qed.
Print Assumptions C104_zero_padding.

(** C104: so a harness that replays a recording while it is being made, or one that a
    killed process left unfinished, calls the target with the recorded arguments or not at
    all, in every mode, if reading past the end is an error. *)
Theorem C104_replay_race :
  forall (R : Type) i env fuel rs n stored (u : user (list MacroArgs.val) R) (e : Env.env) nontrivial
         (m : fs) (h : list (path * bytes)) (d : path) (es : list xevent),
    let x := E.args_data false i rs n stored in
    let p := d ++ [corpus_name x] in
    List.Forall2 (PE.survives i env) rs stored ->
    (forall data, u_decode u data = E.args_decode false env fuel i rs n data) ->
    begun m p x -> (forall y, In (d, y) h -> sha1 y = sha1 x -> y = x) ->
    (length (recordings_of p h) <= 1 \/ forall i n, In (XRec (i, Go n)) es -> length x <= S n) ->
    forall a, In a (calls (fst (entry u e nontrivial (rd_got (xrun p (start m h, opened_now) es).2)))) -> a = stored.
Proof.
  intros R i env fuel rs n stored u e nt m h d es x p Sv Ud B NC Al a I. subst p.
  assert (D : forall d' y, In (d', y) h -> d' ++ [corpus_name y] = d ++ [corpus_name x] -> y = x).
  { intros d' y J Q. apply app_inj_tail in Q as [-> Q]. apply NC; [exact J|]. now apply corpus_name_eq. }
  assert (P : prefix_of (rd_got (xrun (d ++ [corpus_name x]) (start m h, opened_now) es).2) x).
  { destruct Al as [L|W]; [now apply C104_reader_sees_prefix|now apply C104_reader_sees_prefix_unsplit]. }
  apply entry_calls_decoded in I. rewrite Ud in I. remember (rd_got _) as got eqn:G in *. clear G. destruct P as (more & P).
  destruct more as [|c more].
  - rewrite app_nil_r in P. rewrite <- P in I. destruct (PE.args_decode_data false i env rs n stored Sv) as (g & Dg).
    specialize (Dg (fuel + g) ltac:(lia)). fold x in Dg. unfold E.args_decode in *.
    rewrite (PropsSerde.C16_deeper_stack false false env fuel (fuel + g)) in Dg; [|lia|].
    + rewrite I in Dg. congruence.
    + intros Z. rewrite Z in I. discriminate.
  - unfold E.args_decode in I. exfalso.
    destruct (Postcard.deserialize false false env fuel (E.args_shape i rs n) got) as [w| |] eqn:Z; try discriminate.
    eapply (proj1 (C104_truncated_never_decodes false env fuel _ _ w got (c :: more) (PE.args_wt i env rs stored n Sv) ltac:(discriminate))); [exact P|exact Z].
Qed.
Print Assumptions C104_replay_race.

(** C104: if the end of the input reads as zeros, the harness can call the target with
    arguments that nobody recorded: it reads the file before anything is written to it. *)
Theorem C104_zero_padding_refuted :
  exists env f t v w (p d : path) (es : list xevent),
    let x := Postcard.serialize true false v in
    Serde.wt env t v /\ p = d ++ [corpus_name x] /\
    let r := (xrun p (start ∅ [(d, x)], opened_now) es).2 in
    rd_eof r = true /\ Postcard.deserialize true false env f t (rd_got r) = Postcard.Value w /\ w <> v.
Proof.
  exists (fun _ => Serde.TUnit), 3, (Serde.TTuple [Serde.TU8; Serde.TU8]), (Serde.VTuple [Serde.VU8 "a"; Serde.VU8 "b"])%char,
    (Serde.VTuple [Serde.VU8 zero; Serde.VU8 zero]), [lit "c"; corpus_name (lit "ab")], [lit "c"],
    [XRec (0, Go 0); XRec (0, Go 0); XRec (0, Go 0); XRead 0].
  split; [repeat constructor|]. split; [reflexivity|]. split; [vm_compute; reflexivity|]. split; [vm_compute; reflexivity|discriminate].
Qed.
Print Assumptions C104_zero_padding_refuted.

(** C104: two recorders of the same bytes with split writes can show a reader bytes that
    decode to arguments nobody recorded, even if reading past the end is an error. *)
Theorem C104_two_recorders_refuted :
  exists env f t v w (p d : path) (es : list xevent),
    let x := Postcard.serialize false false v in
    Serde.wt env t v /\ p = d ++ [corpus_name x] /\
    let r := (xrun p (start ∅ [(d, x); (d, x)], opened_now) es).2 in
    Postcard.deserialize false false env f t (rd_got r) = Postcard.Value w /\ w <> v.
Proof.
  exists (fun _ => Serde.TUnit), 3, (Serde.TTuple [Serde.TU8; Serde.TU8]), (Serde.VTuple [Serde.VU8 "a"; Serde.VU8 "b"])%char,
    (Serde.VTuple [Serde.VU8 zero; Serde.VU8 "b"%char]), [lit "c"; corpus_name (lit "ab")], [lit "c"],
    [XRec (0, Go 0); XRec (0, Go 0); XRec (0, Go 0); XRec (0, Go 0); XRec (1, Go 0); XRec (1, Go 0); XRec (1, Go 0); XRec (0, Go 0); XRead 7].
  split; [repeat constructor|]. split; [reflexivity|]. split; [vm_compute; reflexivity|discriminate].
Qed.
Print Assumptions C104_two_recorders_refuted.

(** One recorder writes "abc" byte by byte; the reader reads two bytes in two reads while
    it does, and the third when it is done.  A reader that is too fast sees "a" only. *)
Example C104_example :
  let go := XRec (0, Go 0) in
  let p := [lit "c"; corpus_name (lit "abc")] in
  let s := (start ∅ [([lit "c"], lit "abc")], opened_now) in
  (xrun p s [XRead 0; go; go; go; go; XRead 5; go; XRead 0; go; XRead 5; XRead 5]).2 = Reader (lit "abc") true /\
  (xrun p s [go; go; go; go; XRead 5; XRead 5; go; XRead 0; go; XRead 5]).2 = Reader (lit "a") true /\
  begun ∅ p (lit "abc") /\ length (recordings_of p [([lit "c"], lit "abc"); ([lit "d"], lit "abc")]) = 1 /\
  Postcard.deserialize false false (fun _ => Serde.TUnit) 3 (Serde.TTuple [Serde.TU8; Serde.TU8; Serde.TU8]) (lit "a") = Postcard.NoValue /\
  Postcard.deserialize true false (fun _ => Serde.TUnit) 3 (Serde.TTuple [Serde.TU8; Serde.TU8; Serde.TU8]) (lit "a")
    = Postcard.Value (Serde.VTuple [Serde.VU8 "a"%char; Serde.VU8 zero; Serde.VU8 zero]).
Proof. vm_compute. repeat split. Qed.
