(** C101: nothing recorded or found is lost in the course of time. *)
From Coq Require Import String List Ascii Bool Arith NArith Lia.
From stdpp Require Import gmap strings.
From Verif Require Import Base Dirs Env Opts Targets Sha1 Fs Write Meta FuzzCmd Build Auto AutoGen Run RunFacts PropsRun PropsRun2 History.
From Verif Require Consolidate PropsConsolidate Entries PropsEntries PropsRun5.
Import ListNotations.
Local Open Scope nat_scope.
Opaque sha1 corpus_name.

(** * Specification *)

(** The invocation copies findings. *)
Definition consolidates (o : opts) : Prop :=
  o_consolidate_all o = true \/ (o_consolidate o = true /\ o_reset_all o = false).

(** No other contents with the digest of [b] are in any file at any time. *)
Definition unique (b : bytes) (m : fs) : Prop := forall p b', m !! p = Some (File b') -> sha1 b' = sha1 b -> b' = b.
Definition always_unique (b : bytes) (m : fs) (h : list event) : Prop :=
  forall h1 h2, h = h1 ++ h2 -> unique b (history m h1).

(** [b] is in the corpus of the target under the name that it is recorded under. *)
Definition entry (td : path) (id : option str) (krate target : str) (b : bytes) (m : fs) : Prop :=
  exists d, dir_from_target td id Corpus krate target = Ret d /\ m !! (d ++ [corpus_name b]) = Some (File b).

(** The event, in the file system [m], puts [b] into the directory [d]: a recording, the
    consolidation of a finding, or the generation of a corpus where there is none. *)
Definition source (td : path) (autos : exe -> str -> list bytes) (m : fs) (e : event) (d : path) (b : bytes) : Prop :=
  match e with
  | Recorded d' x => d' = d /\ x = b
  | Fuzzed _ _ _ _ => False
  | Invoked w o =>
      exists x tg, reached w o (snd (fst (run w o m))) x tg /\ dir_from_target td (w_id w) Corpus (ex_name x) tg = Ret d /\
        ((asks o JClear /\ consolidates o /\ exists p, Consolidate.finding td (w_id w) m (ex_name x) tg p b) \/
         (asks o JFuzz /\ exists_ m d = false /\ In b (autos (as_exe x) tg)))
  end.

(** The event may remove something at [p]: a fuzzer that has [p] in its output directory, or a
    reset (also after a consolidation) of such a target. *)
Definition sweeps (td : path) (m : fs) (e : event) (p : path) : Prop :=
  match e with
  | Recorded _ _ => False
  | Fuzzed id k t _ => exists d, dir_from_target td id Output k t = Ret d /\ under d p
  | Invoked w o => asks o JClear /\ exists x tg d, reached w o (snd (fst (run w o m))) x tg /\
                     dir_from_target td (w_id w) Output (ex_name x) tg = Ret d /\ under d p
  end.

(** What the operating system says about the directory [d] is true. *)
Definition truthful (s : Entries.eio) (m : fs) (d : path) : Prop :=
  Entries.e_exists s = exists_ m d /\ forall ns, Entries.e_list s = Some (map Some ns) -> lists_dir m d ns.

(** * Proofs *)

Lemma part_of_reset s td id o ets m : Consolidate.io_ok s ->
  Consolidate.part_removed (Consolidate.outputs td id ets) m (Consolidate.state (Consolidate.reset s td id o ets m)).
Proof.
  intros (_ & _ & Rm).
  assert (T : forall k t m, Consolidate.selected ets k t ->
            Consolidate.part_removed (Consolidate.outputs td id ets) m (Consolidate.state (Consolidate.reset_target s td id k t m))).
  { intros k t m1 Sel p. unfold Consolidate.reset_target. rewrite Consolidate.output_of_eq. cbn [Consolidate.with_dir].
    destruct (exists_ m1 _); [|now left]. destruct (Consolidate.i_rm s m1 _) as [m'|] eqn:R; cbn [Consolidate.state fst].
    - destruct (Rm _ _ _ R p) as [K|((d & <- & U) & K)]; [now left|right]. split; [|exact K].
      exists (Consolidate.output_of td id k t). split; [exists k, t; split; [exact Sel|apply Consolidate.output_of_eq]|exact U].
    - destruct (remove_dir_all m1 _) as [m'|] eqn:R'; [|now left]. apply remove_dir_all_some in R' as (_ & A & B). cbn [Consolidate.state fst].
      destruct (is_prefix (Consolidate.output_of td id k t) p) eqn:P.
      + apply is_prefix_spec in P. right. split; [|now apply A].
        exists (Consolidate.output_of td id k t). split; [exists k, t; split; [exact Sel|apply Consolidate.output_of_eq]|exact P].
      + left. apply B. intros U. apply is_prefix_spec in U. congruence. }
  assert (FE : forall A (f : A -> fs -> Consolidate.res) l, (forall a m, In a l -> Consolidate.part_removed (Consolidate.outputs td id ets) m (Consolidate.state (f a m))) ->
            forall m, Consolidate.part_removed (Consolidate.outputs td id ets) m (Consolidate.state (Consolidate.for_each f l m))).
  { intros A f l. induction l as [|a l IH]; intros H m1; cbn [Consolidate.for_each]; [intros p; now left|].
    pose proof (H a m1 (or_introl eq_refl)) as H1. destruct (f a m1) as [[m2 h2] [u|e|]] eqn:F; cbn [Consolidate.seq]; try exact H1.
    specialize (IH (fun a m I => H a m (or_intror I)) m2). destruct (Consolidate.for_each f l m2) as [[m3 h3] r3].
    unfold Consolidate.state in *. cbn [fst] in *. eapply Consolidate.part_removed_trans; [| |exact H1|exact IH]; auto. }
  unfold Consolidate.reset, Consolidate.check. destruct (_ || _); [|intros p; now left].
  apply FE. intros [k ts] m1 I. cbn [fst snd]. destruct (_ || _); [|intros p; now left].
  apply FE. intros t m2 J. apply T. exists ts. auto.
Qed.

Lemma consolidated s td id o ets m : Consolidate.io_ok s -> (forall m d x, Consolidate.i_wr s m d x = None) ->
  exists hs, Consolidate.state (Consolidate.consolidate s td id o ets m) = record_all m hs /\
    (forall d x, In (d, x) hs -> exists k t p, Consolidate.selected ets k t /\ dir_from_target td id Corpus k t = Ret d /\ Consolidate.finding td id m k t p x).
Proof.
  intros Ok Wr. destruct (Consolidate.consolidate_ok s Ok td id m o ets m (Consolidate.same_zone_refl td m)) as (_ & A2 & _ & A4).
  exists (Consolidate.hist (Consolidate.consolidate s td id o ets m)). split.
  - destruct A4 as [A4|(d & x & k & _ & _ & m1 & K)]; [exact A4|]. rewrite Wr in K. discriminate.
  - intros d x I. apply A2, Consolidate.all_writes_corpus in I as (k & t & p & Sel & E & _ & F). cbn [fst snd] in *.
    exists k, t, p. split; [exact Sel|]. split; [rewrite E; apply Consolidate.corpus_of_eq|exact F].
Qed.

Lemma exists_record m hs p : exists_ m p = true -> exists_ (record_all m hs) p = true.
Proof.
  revert m. induction hs as [|[d x] hs IH]; intros m H; [exact H|]. cbn [record_all]. apply IH.
  unfold exists_ in *. destruct p as [|a p]; [reflexivity|]. destruct (m !! (a :: p)) as [n|] eqn:L; [|discriminate].
  unfold write_data. set (q := d ++ [corpus_name x]).
  destruct (fs_write _ q x) as [m2|] eqn:W; cbn [fst].
  - apply fs_write_some in W as (-> & _). destruct (decide (q = a :: p)) as [->|N]; [now rewrite lookup_insert|].
    rewrite lookup_insert_ne by exact N. now rewrite (create_dir_all_keep _ _ _ _ L).
  - now rewrite (create_dir_all_keep _ _ _ _ L).
Qed.

Lemma generated td id autos g l : records_autos td id autos g -> forall m m' att ns errs,
  autogen_loop td id g m l = (m', att, ns, errs) ->
  exists hs, m' = record_all m hs /\
    (forall d x, In (d, x) hs -> exists y tg, In (y, tg) l /\ dir_from_target td id Corpus (x_name y) tg = Ret d /\ exists_ m d = false /\ In x (autos y tg)).
Proof.
  intros G. induction l as [|[x t] l IH]; intros m m' att ns errs E.
  - cbn in E. injection E as <- _ _ _. exists []. split; [reflexivity|intros d y []].
  - rewrite autogen_cons in E. cbv zeta in E. destruct (exists_ m (corpus_dir td id (x, t))) eqn:X.
    + destruct (IH _ _ _ _ _ E) as (hs & -> & H). exists hs. split; [reflexivity|]. intros d y I. destruct (H d y I) as (z & tg & J & K). exists z, tg. split; [now right|exact K].
    + destruct (G m x t) as (n & Gm). destruct (g m x t) as [m1 ok]. cbn [fst] in Gm.
      destruct (autogen_loop td id g m1 l) as [[[m2 att'] ns'] errs'] eqn:L.
      assert (m' = m2) as -> by now inversion E. destruct (IH _ _ _ _ _ L) as (hs & -> & H). subst m1.
      exists (map (pair (corpus_dir td id (x, t))) (firstn n (autos x t)) ++ hs). split; [now rewrite Consolidate.record_all_app|].
      intros d y I. apply in_app_iff in I as [I|I].
      * apply in_map_iff in I as (z & [= <- ->] & I). exists x, t. split; [now left|]. split; [apply corpus_dir_eq|]. split; [exact X|].
        rewrite <- (firstn_skipn n (autos x t)). apply in_app_iff. now left.
      * destruct (H d y I) as (z & tg & J & K1 & K2 & K3). exists z, tg. split; [now right|]. split; [exact K1|]. split; [|exact K3].
        destruct (exists_ m d) eqn:Ed; [|reflexivity]. now rewrite (exists_record m _ d Ed) in K2.
Qed.

Lemma fuzz_state w o fl m m' t r : p_fuzz w o fl m = (m', t, r) ->
  m' = m \/ exists att ns y, auto_generate_corpora (q_td (w_cargo w)) (w_id w) (w_gen w) m (map (fun xt => (as_exe (fst xt), snd xt)) fl) = (m', att, ns, y).
Proof.
  intros E. unfold p_fuzz in E. destruct (is_some (o_coverage o)); [left; now inversion E|]. right.
  unfold pbind at 1 in E. destruct (auto_generate_corpora _ _ _ _ _) as [[[m1 att] ns] y]. exists att, ns, y.
  assert (m' = m1) as ->; [|reflexivity].
  destruct y as [u|e|]; [|now inversion E|now inversion E].
  match type of E with match ?q m1 with _ => _ end = _ => assert (K : keeps q) end.
  { apply keeps_bind; [apply keeps_lift|]. intros [|n].
    - destruct (map _ fl) as [|[x tg] xts]; [apply keeps_ret|]. apply keeps_bind; [apply keeps_lift|]. intros args.
      apply keeps_bind; [apply keeps_act|]. intros _. destruct (w_foreground w); [apply keeps_ret|apply keeps_lift].
    - apply keeps_bind; [destruct (_ <=? _); [apply keeps_ret|apply keeps_act]|]. intros _. apply keeps_bind; [apply keeps_lift|]. intros args.
      cbv zeta. apply keeps_bind; [apply keeps_act|]. intros _. destruct (fst _) as [s|x|].
      + intros a b c d Q. now inversion Q.
      + apply keeps_lift.
      + intros a b c d Q. now inversion Q. }
  match type of E with match ?q with _ => _ end = _ => destruct q as [[m2 t2] r2] eqn:Q end.
  apply K in Q. subst m2. now inversion E.
Qed.

Lemma clear_effect td w o b l m m' t r : p_clear w o b l m = (m', t, r) ->
  q_td (w_cargo w) = td -> Consolidate.io_ok (w_io w) -> (forall m d x, Consolidate.i_wr (w_io w) m d x = None) ->
  exists hs, Consolidate.part_removed (Consolidate.outputs td (w_id w) (by_name l)) (record_all m hs) m' /\
    forall d x, In (d, x) hs -> b = true /\ exists k tg p, Consolidate.selected (by_name l) k tg /\
      dir_from_target td (w_id w) Corpus k tg = Ret d /\ Consolidate.finding td (w_id w) m k tg p x.
Proof.
  intros E <- Ok Wr. unfold p_clear in E.
  assert (C : exists hs m1 t1, (if b then p_io AConsolidate (Consolidate.consolidate (w_io w) (q_td (w_cargo w)) (w_id w) o (by_name l)) else pret tt) m = (m1, t1, ROk tt) /\ m1 = record_all m hs /\
              p_io AReset (Consolidate.reset (w_io w) (q_td (w_cargo w)) (w_id w) o (by_name l)) m1 = (m', skipn (List.length t1) t, r) /\
              (forall d x, In (d, x) hs -> b = true /\ exists k tg p, Consolidate.selected (by_name l) k tg /\
                 dir_from_target (q_td (w_cargo w)) (w_id w) Corpus k tg = Ret d /\ Consolidate.finding (q_td (w_cargo w)) (w_id w) m k tg p x) \/
              m' = record_all m hs /\
              (forall d x, In (d, x) hs -> b = true /\ exists k tg p, Consolidate.selected (by_name l) k tg /\
                 dir_from_target (q_td (w_cargo w)) (w_id w) Corpus k tg = Ret d /\ Consolidate.finding (q_td (w_cargo w)) (w_id w) m k tg p x)).
  { destruct b.
    - destruct (consolidated (w_io w) (q_td (w_cargo w)) (w_id w) o (by_name l) m Ok Wr) as (hs & S & H). exists hs.
      assert (H' : forall d x, In (d, x) hs -> true = true /\ exists k tg p, Consolidate.selected (by_name l) k tg /\
                 dir_from_target (q_td (w_cargo w)) (w_id w) Corpus k tg = Ret d /\ Consolidate.finding (q_td (w_cargo w)) (w_id w) m k tg p x) by auto.
      unfold pbind, p_io at 1 in E. unfold p_io at 1. destruct (Consolidate.consolidate _ _ _ _ _ m) as [[m1 h1] [[]|e|]]; unfold Consolidate.state in S; cbn [fst] in S; subst m1.
      + do 2 eexists. left. split; [reflexivity|]. split; [reflexivity|]. split; [|exact H'].
        destruct (p_io AReset _ (record_all m hs)) as [[m2 t2] r2]. injection E as <- <- <-. reflexivity.
      + exists m, []. right. split; [now inversion E|exact H'].
      + exists m, []. right. split; [now inversion E|exact H'].
    - exists [], m, []. left. split; [reflexivity|]. split; [reflexivity|]. split; [|intros d x []].
      unfold pbind, pret in E. destruct (p_io AReset _ m) as [[m2 t2] r2]. injection E as <- <- <-. reflexivity. }
  destruct C as (hs & m1 & t1 & [(_ & -> & R & H)|(-> & H)]); exists hs; (split; [|exact H]); [|intros p; now left].
  pose proof (part_of_reset (w_io w) (q_td (w_cargo w)) (w_id w) o (by_name l) (record_all m hs) Ok) as PR.
  unfold p_io in R. destruct (Consolidate.reset _ _ _ _ _ _) as [[m2 h2] [u|e|]]; unfold Consolidate.state in PR; cbn [fst] in PR;
    (assert (m' = m2) as -> by now inversion R); exact PR.
Qed.

Lemma selected_names l k tg : Consolidate.selected (by_name l) k tg <-> exists y, ex_name y = k /\ exists ts, In (y, ts) l /\ In tg ts.
Proof.
  unfold Consolidate.selected, by_name. split.
  - intros (ts & I & J). apply in_map_iff in I as ([y ts'] & [= <- <-] & I). cbn [fst snd]. eauto.
  - intros (y & <- & ts & I & J). exists ts. split; [|exact J]. apply in_map_iff. exists (y, ts). auto.
Qed.

(** What one invocation does to the data directories. *)
Lemma run_effect td autos w o m m' t r : run w o m = (m', t, r) -> possible td autos m (Invoked w o) ->
  exists hs, (forall p, m' !! p = record_all m hs !! p \/ sweeps td m (Invoked w o) p) /\
    forall d x, In (d, x) hs -> source td autos m (Invoked w o) d x.
Proof.
  intros E0 (TD & Ok & Wr & G). unfold sweeps, source. rewrite E0. cbn [fst snd]. pose proof E0 as E.
  apply run_eq in E as (r0 & E & _).
  assert (Same : m' = m -> exists hs, (forall p, m' !! p = record_all m hs !! p \/ (asks o JClear /\ exists x tg d, reached w o t x tg /\ dir_from_target td (w_id w) Output (ex_name x) tg = Ret d /\ under d p)) /\
    forall d x, In (d, x) hs -> exists y tg, reached w o t y tg /\ dir_from_target td (w_id w) Corpus (ex_name y) tg = Ret d /\
        ((asks o JClear /\ consolidates o /\ exists p, Consolidate.finding td (w_id w) m (ex_name y) tg p x) \/
         (asks o JFuzz /\ exists_ m d = false /\ In x (autos (as_exe y) tg)))).
  { intros ->. exists []. split; [intros p; now left|intros d x []]. }
  apply run_shape in E as [(_ & K & _)|[(_ & K & _)|(_ & t1 & t2 & l & P & D & ->)]]; [now apply Same|now apply Same|].
  pose proof (adjust_same o) as (A1 & A2 & A3 & A4 & A5 & A6 & A7 & A8 & A9 & _).
  assert (Clear : forall b, o_list (adjust o) = false -> o_no_run (adjust o) = false -> asks_clear (adjust o) ->
    p_clear w (adjust o) b l m = (m', t2, r0) -> (b = true -> consolidates o) ->
    exists hs, (forall p, m' !! p = record_all m hs !! p \/ (asks o JClear /\ exists x tg d, reached w o (t1 ++ t2) x tg /\ dir_from_target td (w_id w) Output (ex_name x) tg = Ret d /\ under d p)) /\
    forall d x, In (d, x) hs -> exists y tg, reached w o (t1 ++ t2) y tg /\ dir_from_target td (w_id w) Corpus (ex_name y) tg = Ret d /\
        ((asks o JClear /\ consolidates o /\ exists p, Consolidate.finding td (w_id w) m (ex_name y) tg p x) \/
         (asks o JFuzz /\ exists_ m d = false /\ In x (autos (as_exe y) tg)))).
  { intros b L N AC D' CB. pose proof (clear_within _ _ _ _ _ _ _ _ D') as FJ.
    pose proof (reached_prepare w o m _ t1 t2 JClear l P FJ) as RP.
    assert (As : asks o JClear) by (apply adjust_asks; cbn [asks]; auto).
    destruct (clear_effect td w (adjust o) b l m m' t2 r0 D' TD Ok Wr) as (hs & PR & H). exists hs. split.
    - intros p. destruct (PR p) as [K|((d & (k & tg & Sel & Dd) & U) & _)]; [now left|right]. split; [exact As|].
      apply selected_names in Sel as (y & <- & Sel). exists y, tg, d. split; [now apply RP|]. split; [exact Dd|exact U].
    - intros d x I. destruct (H d x I) as (Eb & k & tg & p & Sel & Dd & F). apply selected_names in Sel as (y & <- & Sel).
      exists y, tg. split; [now apply RP|]. split; [exact Dd|]. left. split; [exact As|]. split; [now apply CB|]. exists p. exact F. }
  apply dispatch_cases in D as [(L & K & _)|[(_ & _ & K & _)|[(L & N & C & D)|[(L & N & C1 & C & D)|[(L & N & C1 & C2 & S0 & D)|(L & N & C1 & C2 & S0 & D)]]]]];
    [now apply Same|now apply Same| | | |].
  - apply (Clear _ L N (clear_true _ (or_introl C)) D). rewrite A7. now left.
  - apply (Clear _ L N (clear_true _ (or_intror C)) D). rewrite A6. intros Q. right. split; [exact Q|]. rewrite A9 in C1. now apply orb_false_iff in C1 as [_ ?].
  - apply Same. eapply show_keeps. exact D.
  - assert (W : within (of_job JFuzz) (pbind (plift (flatten_executable_targets (E := executable) (o_exact (adjust o)) (o_ztarget (adjust o)) l)) (p_fuzz w (adjust o))))
      by (apply within_bind; [apply within_lift|intros fl; apply fuzz_within]).
    pose proof (W _ _ _ _ D) as FJ. pose proof (reached_prepare w o m _ t1 t2 JFuzz l P FJ) as RP.
    assert (As : asks o JFuzz).
    { apply adjust_asks. cbn [asks]. split; [exact L|]. split; [exact N|]. split; [now apply clear_false|]. rewrite <- show_bool. congruence. }
    apply pbind_inv in D as [(m1 & u1 & u2 & fl & X & D & ->)|(r1 & X & _)]; [|apply Same; now inversion X].
    unfold plift in X. destruct (flatten_executable_targets _ _ _) as [fl'|e|] eqn:FL; try congruence. injection X as <- <- ->.
    apply fuzz_state in D as [K|(att & ns & y & AG)]; [now apply Same|]. rewrite TD in AG. unfold auto_generate_corpora in AG.
    destruct (autogen_loop _ _ _ _ _) as [[[m2 att2] ns2] errs2] eqn:AL. assert (m' = m2) as -> by now inversion AG.
    destruct (generated td (w_id w) autos (w_gen w) _ G _ _ _ _ _ AL) as (hs & -> & H). exists hs. split; [intros p; now left|].
    intros d x I. destruct (H d x I) as (z & tg & J & Dd & Ex & Au). apply in_map_iff in J as ([q tg'] & [= <- <-] & J). cbn [fst snd] in *.
    exists q, tg'. split; [apply RP; now apply (flatten_in _ _ _ _ q tg' FL)|]. split; [exact Dd|]. right. auto.
Qed.

Lemma history_app m h1 h2 : history m (h1 ++ h2) = history (history m h1) h2.
Proof. apply fold_left_app. Qed.

Lemma always_tail b m e h : always_unique b m (e :: h) -> always_unique b (happen m e) h.
Proof. intros A h1 h2 ->. apply (A (e :: h1) h2 eq_refl). Qed.

Lemma always_next b m e h : always_unique b m (e :: h) -> unique b (happen m e).
Proof. intros A. apply (A [e] h eq_refl). Qed.

Lemma record_all_file hs : forall m p b, m !! p = Some (File b) ->
  exists b', record_all m hs !! p = Some (File b') /\ (b' = b \/ exists d, p = d ++ [corpus_name b']).
Proof.
  induction hs as [|[d x] hs IH]; intros m p b L; [exists b; auto|]. cbn [record_all].
  assert (W : exists b1, (write_data m d x).1 !! p = Some (File b1) /\ (b1 = b \/ p = d ++ [corpus_name b1])).
  { destruct (decide (p = d ++ [corpus_name x])) as [E|N]; [|exists b; split; [now apply write_data_keep|now left]].
    unfold write_data. destruct (fs_write _ _ _) as [m2|] eqn:W; cbn [fst].
    - apply fs_write_some in W as (-> & _). exists x. rewrite E, lookup_insert. auto.
    - exists b. split; [now apply create_dir_all_keep|now left]. }
  destruct W as (b1 & L1 & C1). destruct (IH _ _ _ L1) as (b2 & L2 & C2). exists b2. split; [exact L2|].
  destruct C2 as [->|C2]; [|now right]. destruct C1 as [->|C1]; [now left|]. right. eauto.
Qed.

Lemma zone_record td hs p : under (Consolidate.zone td) p ->
  (forall d x, In (d, x) hs -> exists id k s, d = td ++ [path_segment id (kind_name k); s]) ->
  forall m, record_all m hs !! p = m !! p.
Proof.
  intros U. induction hs as [|[d x] hs IH]; intros H m; [reflexivity|]. cbn [record_all].
  rewrite IH by (intros; eapply H; right; eauto). destruct (H d x (or_introl eq_refl)) as (id & k & s & ->).
  destruct (Consolidate.zone_apart td id k s p (corpus_name x) U). now apply Consolidate.write_data_frame.
Qed.

Lemma source_dir td autos m w o d x : source td autos m (Invoked w o) d x -> exists id k s, d = td ++ [path_segment id (kind_name k); s].
Proof.
  intros (y & tg & _ & D & _). rewrite Consolidate.corpus_of_eq in D. injection D as <-.
  exists (w_id w), Corpus, (path_from_target (ex_name y) tg). reflexivity.
Qed.

Lemma not_swept td autos m e id k t n : possible td autos m e -> ~ sweeps td m e (Consolidate.corpus_of td id k t ++ [n]).
Proof.
  intros P S. assert (U : under (Consolidate.zone td) (Consolidate.corpus_of td id k t ++ [n])).
  { destruct e as [d x|id' k' t' m'|w o]; cbn [sweeps] in S.
    - destruct S.
    - destruct S as (d & D & U). eapply Consolidate.output_zone; eauto.
    - destruct S as (_ & x & tg & d & _ & D & U). eapply Consolidate.output_zone; eauto. }
  exact (Consolidate.corpus_not_zone td id k t [n] _ U eq_refl).
Qed.

(** The event creates a directory above that of the output of a target. *)
Definition makes (td : path) (m : fs) (e : event) (p : path) : Prop :=
  m !! p = None /\ happen m e !! p = Some Dir /\ exists id k t, under p (Consolidate.output_of td id k t) /\
    forall q, p = Consolidate.output_of td id k t ++ q -> sweeps td m e p.

(** The effect of any event outside of what it may sweep. *)
Lemma event_effect td autos m e : possible td autos m e ->
  exists hs, (forall p, happen m e !! p = record_all m hs !! p \/ sweeps td m e p \/ makes td m e p) /\
    forall d x, In (d, x) hs -> source td autos m e d x.
Proof.
  intros P. destruct e as [d x|id k t m'|w o]; cbn [happen].
  - exists [(d, x)]. split; [intros p; now left|]. intros d' x' [[= -> ->]|[]]. cbn. auto.
  - exists []. split; [|intros d x []]. intros p. cbn [record_all].
    destruct (P p) as [K|(d & D & [U|(U & N & M)])]; [now left|right; left; cbn; eauto|right; right].
    split; [exact N|]. split; [exact M|]. exists id, k, t. pose proof D as D'. rewrite Consolidate.output_of_eq in D'. injection D' as ->. split; [exact U|].
    intros q ->. exists d. split; [exact D|]. now exists q.
  - destruct (run w o m) as [[m' t] r] eqn:E. cbn [fst].
    destruct (run_effect td autos w o m m' t r E P) as (hs & H & HS). exists hs. split; [|exact HS]. intros p. destruct (H p); auto.
Qed.

Lemma entry_step td autos id k t b m e : entry td id k t b m -> possible td autos m e -> unique b (happen m e) ->
  entry td id k t b (happen m e).
Proof.
  intros (d & D & L) P Un. pose proof D as D'. rewrite Consolidate.corpus_of_eq in D'. injection D' as <-. exists (Consolidate.corpus_of td id k t). split; [exact D|].
  destruct (event_effect td autos m e P) as (hs & H & _).
  destruct (H (Consolidate.corpus_of td id k t ++ [corpus_name b])) as [K|[K|(K & _)]]; [|now apply not_swept with (autos := autos) in K|congruence].
  destruct (record_all_file hs _ _ _ L) as (b' & L' & C). rewrite K, L'. rewrite L' in K.
  destruct C as [->|(d' & E)]; [reflexivity|]. apply app_inj_tail in E as [_ E]. apply corpus_name_inj in E.
  now rewrite (Un _ _ K (eq_sym E)).
Qed.

(** * Theorems *)

(** Whatever is recorded, fuzzed, consolidated, reset, displayed or replayed afterwards, in
    whatever order and however it fails: what is in the corpus of a target stays there. *)
Theorem C101_corpus_kept :
  forall (td : path) (autos : exe -> str -> list bytes) (id : option str) (krate target : str) (b : bytes) (h : list event) (m : fs),
    entry td id krate target b m -> plausible td autos m h -> always_unique b m h ->
    entry td id krate target b (history m h).
Proof.
  intros td autos id k t b h. induction h as [|e h IH]; intros m L P A; [exact L|].
  cbn [plausible] in P. destruct P as [P1 P2]. change (history m (e :: h)) with (history (happen m e) h).
  apply IH; [|exact P2|now apply always_tail]. eapply entry_step; [exact L|exact P1|now apply always_next in A].
Qed.
Print Assumptions C101_corpus_kept.

(** In particular what a test has recorded successfully. *)
Theorem C101_recording_kept :
  forall (td : path) (autos : exe -> str -> list bytes) (id : option str) (krate c target rest : str) (b : bytes) (d : path) (h : list event) (m m1 : fs),
    crate_of krate c -> ~ occurs (lit "_fuzz__") (c ++ lit "::" ++ target ++ lit "_fuzz_") ->
    dir_from_args_type td id Corpus (args_type_name c target rest) = Ret d ->
    write_data m d b = (m1, true) -> plausible td autos m1 h -> always_unique b m1 h ->
    entry td id krate target b (history m1 h).
Proof.
  intros td autos id k c t rest b d h m m1 C O D W P A. rewrite (dir_agreement td id Corpus k c t rest C O) in D.
  apply (C101_corpus_kept td autos); [|exact P|exact A]. exists d. split; [exact D|].
  unfold write_data in W. destruct (fs_write _ _ _) as [m2|] eqn:F; [|congruence].
  apply fs_write_some in F as (-> & _). injection W as <-. apply lookup_insert.
Qed.
Print Assumptions C101_recording_kept.

(** What fuzzing has found is in the corpus from the next successful consolidation on. *)
Theorem C101_finding_kept :
  forall (td : path) (autos : exe -> str -> list bytes) (w : world) (o : opts) (m m1 : fs) (tr : list act) (x : executable) (tg : str) (p : path) (b : bytes) (h : list event),
    run w o m = (m1, tr, ROk tt) -> asks o JClear -> consolidates o -> reached w o tr x tg ->
    Consolidate.finding td (w_id w) m (ex_name x) tg p b ->
    plausible td autos m (Invoked w o :: h) -> always_unique b m (Invoked w o :: h) ->
    entry td (w_id w) (ex_name x) tg b (history m1 h).
Proof.
  intros td autos w o m m1 tr x tg p b h E As Co Re F P A. cbn [plausible happen] in P. rewrite E in P. cbn [fst] in P.
  destruct P as [(TD & Ok & Wr & G) P]. pose proof (always_tail _ _ _ _ A) as A'. apply always_next in A. cbn [happen] in A, A'. rewrite E in A, A'. cbn [fst] in A, A'.
  apply (C101_corpus_kept td autos); [|exact P|exact A']. clear P A' h.
  destruct (C42_success_means_done w o m m1 tr E) as (_ & K & _). destruct (K As) as [R _]. clear K.
  destruct (C42_cleared_targets w o m m1 tr _ E (or_intror R)) as (l & m2 & hs & y & Sel & CR & -> & Y).
  assert (y = Ret tt) as -> by now apply Y. clear Y. rewrite TD in CR.
  assert (Co' : PropsConsolidate.consolidates (adjust o)).
  { pose proof (adjust_same o) as (_ & _ & _ & _ & _ & A6 & A7 & _ & A9 & _). unfold PropsConsolidate.consolidates. rewrite A6, A7, A9. exact Co. }
  rewrite PropsConsolidate.consolidates_eq in CR by exact Co'. injection CR as CR.
  apply PropsConsolidate.seq_ret in CR as (R1 & _ & <-).
  destruct (Consolidate.consolidate_ok (w_io w) Ok td (w_id w) m (adjust o) l m (Consolidate.same_zone_refl td m)) as (_ & _ & A3 & _).
  destruct (A3 R1) as (S & W & Rs). clear A3.
  set (mc := Consolidate.state (Consolidate.consolidate (w_io w) td (w_id w) (adjust o) l m)) in *.
  set (hc := Consolidate.hist _) in *.
  assert (I : In (Consolidate.corpus_of td (w_id w) (ex_name x) tg, b) hc).
  { apply W. exists (ex_name x), tg. split; [apply Sel; eauto|]. split; [reflexivity|]. exists p. exact F. }
  set (q := Consolidate.corpus_of td (w_id w) (ex_name x) tg ++ [corpus_name b]).
  assert (Q : exists b', mc !! q = Some (File b') /\ sha1 b' = sha1 b).
  { rewrite S. apply in_split in I as (h1 & h2 & I). rewrite I in *. rewrite Consolidate.record_all_app. cbn [record_all].
    rewrite Consolidate.record_results_app in Rs. apply Forall_app in Rs as [_ Rs]. cbn [record_results] in Rs. apply Forall_inv in Rs.
    assert (L : (write_data (record_all m h1) (Consolidate.corpus_of td (w_id w) (ex_name x) tg) b).1 !! q = Some (File b)).
    { unfold write_data in *. fold q in Rs |- *. destruct (fs_write _ q b) as [m3|] eqn:FW; [|discriminate Rs].
      apply fs_write_some in FW as (-> & _). apply lookup_insert. }
    destruct (record_all_file h2 _ _ _ L) as (b' & L' & C). exists b'. split; [exact L'|].
    destruct C as [->|(d & C)]; [reflexivity|]. apply app_inj_tail in C as [_ C]. now apply corpus_name_inj in C. }
  destruct Q as (b' & L & Sh).
  assert (L' : Consolidate.state (Consolidate.reset (w_io w) td (w_id w) (adjust o) l mc) !! q = Some (File b')).
  { destruct (part_of_reset (w_io w) td (w_id w) (adjust o) l mc Ok q) as [K|((d & (k & tg' & _ & D) & U) & _)]; [congruence|].
    exfalso. apply (Consolidate.output_zone _ _ _ _ _ _ D) in U. exact (Consolidate.corpus_not_zone td (w_id w) (ex_name x) tg [corpus_name b] _ U eq_refl). }
  exists (Consolidate.corpus_of td (w_id w) (ex_name x) tg). split; [apply Consolidate.corpus_of_eq|]. fold q.
  rewrite L'. now rewrite (A _ _ L' Sh).
Qed.
Print Assumptions C101_finding_kept.

(** What is in the corpus is shown by a successful replay (or display, or coverage run): its
    process is started exactly once, on the file that has the data. *)
Theorem C101_shown :
  forall (w : world) (o : opts) (m m1 : fs) (tr : list act) (x : executable) (tg : str) (b : bytes) (ob : object),
    run w o m = (m1, tr, ROk tt) -> asks o JShow ->
    (o_coverage o = Some ob \/ (o_coverage o = None /\ o_display o = Some ob) \/
     (o_coverage o = None /\ o_display o = None /\ o_replay o = Some ob)) ->
    In ob [Corpus_; CorpusInstrumented] -> reached w o tr x tg ->
    entry (q_td (w_cargo w)) (w_id w) (ex_name x) tg b m ->
    (forall d, dir_from_target (q_td (w_cargo w)) (w_id w) Corpus (ex_name x) tg = Ret d -> truthful (w_eio w x tg) m d) ->
    exists d es, dir_from_target (q_td (w_cargo w)) (w_id w) Corpus (ex_name x) tg = Ret d /\ In (ATarget x tg d es) tr /\
      (exists l1 l2, Entries.started es = l1 ++ corpus_name b :: l2 /\ ~ In (corpus_name b) l1 /\ ~ In (corpus_name b) l2) /\
      fs_read m (d ++ [corpus_name b]) = Some b.
Proof.
  intros w o m m1 tr x tg b ob E As Ob Oc Re (d0 & D0 & L) Tr.
  destruct (proj2 (C42_shown_targets_exact w o m m1 tr E As x tg) Re) as (d & es & I).
  pose proof (PropsRun5.C100_nothing_ignored w o m m1 tr E) as S. rewrite Forall_forall in S. apply elem_of_list_In in I. pose proof (S _ I) as S1. clear S. apply elem_of_list_In in I.
  cbn [PropsRun5.succeeded] in S1. destruct S1 as (ob' & rct & raw & Ob' & FD & FE).
  assert (ob' = ob) as -> by (destruct Ob as [Ob|[[? Ob]|(? & ? & Ob)]], Ob' as [Ob'|[[? Ob']|(? & ? & Ob')]]; congruence).
  assert (dir_from_target (q_td (w_cargo w)) (w_id w) Corpus (ex_name x) tg = Ret d /\ raw = false) as [D ->].
  { destruct Oc as [<-|[<-|[]]]; cbn [Entries.flags_and_dir] in FD; rewrite D0 in FD |- *; cbn in FD; injection FD as _ <- <-; auto. }
  assert (d0 = d) as -> by congruence. exists d, es. split; [exact D|]. split; [exact I|]. split; [|unfold fs_read; now rewrite L].
  destruct (Tr d D) as [_ T].
  apply Entries.for_each_entry_spec in FE as [(_ & _ & K)|[(_ & _ & _ & K)|(done & rest & reports & _ & Li & _ & _ & -> & St & _)]]; try discriminate K.
  rewrite app_nil_r in Li. destruct (T done Li) as (_ & ND & LD). rewrite St.
  pose proof (fun y => proj1 (PropsEntries.C50_entries_exact done y)) as In1.
  assert (N : List.NoDup (Entries.entries done)) by (apply (proj2 (PropsEntries.C50_entries_exact done [])); now apply NoDup_ListNoDup).
  assert (J : In (corpus_name b) (Entries.entries done)).
  { apply In1. split; [apply LD; congruence|]. split; intros K; apply (f_equal (@List.length _)) in K; rewrite corpus_name_length in K; discriminate. }
  apply in_split in J as (l1 & l2 & J). rewrite J in N |- *. exists l1, l2. split; [reflexivity|]. apply List.NoDup_remove_2 in N.
  split; intros K; apply N; apply in_or_app; auto.
Qed.
Print Assumptions C101_shown.

(** Nothing else gets into a corpus: every file there was there at first or was put there by a
    recording, a consolidation that found it, or a generation for a corpus that was missing. *)
Theorem C101_origin :
  forall (td : path) (autos : exe -> str -> list bytes) (id : option str) (krate target : str) (d : path) (n : str) (b : bytes) (h : list event) (m : fs),
    dir_from_target td id Corpus krate target = Ret d -> plausible td autos m h ->
    history m h !! (d ++ [n]) = Some (File b) ->
    m !! (d ++ [n]) = Some (File b) \/
    n = corpus_name b /\ exists h1 e h2, h = h1 ++ e :: h2 /\ source td autos (history m h1) e d b.
Proof.
  intros td autos id k t d n b h. induction h as [|e h IH]; intros m D P L; [now left|].
  cbn [plausible] in P. destruct P as [P1 P2]. change (history m (e :: h)) with (history (happen m e) h) in L.
  destruct (IH _ D P2 L) as [K|(En & h1 & e' & h2 & -> & S)]; [|right; split; [exact En|]; exists (e :: h1), e', h2; auto].
  destruct (event_effect td autos m e P1) as (hs & H & HS). pose proof D as D'. rewrite Consolidate.corpus_of_eq in D'. injection D' as Ed.
  destruct (H (d ++ [n])) as [Q|[Q|(_ & Q & _)]]; [|rewrite <- Ed in Q; now apply not_swept with (autos := autos) in Q|congruence].
  rewrite Q in K. apply record_all_lookup in K as [K|[(K & _)|(d' & y & I & K & Ep)]]; [now left|discriminate K|].
  right. injection K as <-. apply app_inj_tail in Ep as [-> ->]. split; [reflexivity|]. exists [], e, h. split; [reflexivity|]. now apply HS.
Qed.
Print Assumptions C101_origin.

(** The output of the fuzzers of a target is changed by them and by resetting it only. *)
Theorem C101_output_kept :
  forall (td : path) (autos : exe -> str -> list bytes) (id : option str) (krate target : str) (d p : path) (h : list event) (m : fs),
    dir_from_target td id Output krate target = Ret d -> under d p -> plausible td autos m h ->
    history m h !! p = m !! p \/ exists h1 e h2, h = h1 ++ e :: h2 /\ sweeps td (history m h1) e p.
Proof.
  intros td autos id k t d p h. induction h as [|e h IH]; intros m D U P; [now left|].
  cbn [plausible] in P. destruct P as [P1 P2]. change (history m (e :: h)) with (history (happen m e) h).
  destruct (IH _ D U P2) as [K|(h1 & e' & h2 & -> & S)]; [|right; exists (e :: h1), e', h2; auto].
  destruct (event_effect td autos m e P1) as (hs & H & HS).
  destruct (H p) as [Q|[Q|(_ & _ & id' & k' & t' & U' & Q)]]; [|right; exists [], e, h; auto|].
  2:{ right. exists [], e, h. split; [reflexivity|]. apply (Q []). rewrite app_nil_r.
      rewrite Consolidate.output_of_eq in D. injection D as <-. destruct U as [q ->], U' as [r E]. rewrite E.
      assert (r = []) as ->; [|now rewrite app_nil_r].
      apply (f_equal (@List.length _)) in E. unfold Consolidate.output_of in E. rewrite !app_length in E. cbn in E. destruct r; [reflexivity|cbn in E; lia]. }
  left. rewrite K, Q. apply (zone_record td); [eapply Consolidate.output_zone; eauto|]. intros d' y I. apply HS in I.
  destruct e as [d1 x1|id' k' t' m'|w o].
  - destruct I as [<- <-]. destruct P1 as (id' & k' & tn & N & R). destruct (Consolidate.recorded_dir _ _ _ _ _ N R) as (s & ->). eauto.
  - destruct I.
  - eapply source_dir. exact I.
Qed.
Print Assumptions C101_output_kept.

(** The generated test records the encodings of the values of the types in order, all of them
    unless a recording fails. *)
Theorem C101_generator :
  forall (V : Type) (e : env) (enc : list V -> bytes) (d : path) (vs : list (list V)) (es : list (list V)) (m : fs),
    test_fuzz_enabled e = false -> args_from_autos vs = Ret es ->
    exists n, fst (auto_generate e enc d vs m) = record_all m (map (pair d) (firstn n (map enc es))) /\
      (snd (auto_generate e enc d vs m) = true -> firstn n (map enc es) = map enc es).
Proof.
  intros V e enc d vs es m T A. unfold auto_generate. rewrite T, A. clear T A. revert m. induction es as [|a es IH]; intros m.
  - exists 0. auto.
  - destruct (write_data m d (enc a)) as [m1 ok] eqn:W. destruct ok.
    + destruct (IH m1) as (n & E1 & E2). exists (S n). cbn [map firstn record_all]. rewrite W. cbn [fst]. split; [exact E1|].
      intros K. f_equal. now apply E2.
    + exists 1. cbn [map firstn record_all]. rewrite W. split; [reflexivity|discriminate].
Qed.
Print Assumptions C101_generator.

(** A history: a test records "hi" for target "f" of the executable "k"; a fuzzer of that target
    finds "boom"; that target is consolidated; both targets are fuzzed, so that the missing corpus
    of "g" is generated; everything is reset; another test records "more". *)
Transparent sha1 corpus_name.
Definition ex_hw : world :=
  let w := ex_world ex_afl_ok [] in
  {| w_cargo := w_cargo w; w_parse := w_parse w; w_afl := w_afl w; w_terminal := false; w_build := w_build w; w_listing := w_listing w;
     w_self := w_self w; w_show := w_show w; w_id := None; w_io := w_io w; w_width := None; w_clean := true;
     w_eio := fun _ tg => {| Entries.e_exists := true;
                             Entries.e_list := Some (if str_eqb tg (lit "f") then [Some (corpus_name (lit "boom")); Some (corpus_name (lit "hi"))] else []);
                             Entries.e_open := fun _ => true; Entries.e_raw := fun _ => None; Entries.e_proc := fun _ => Entries.PExit (lit "ran") true [] |};
     w_lcov := w_lcov w; w_report := w_report w;
     w_gen := fun m x t => (record_all m (map (pair (corpus_dir [lit "t"] None (x, t))) [lit "0"; lit "1"]), true);
     w_cpus := 4; w_checks := true; w_foreground := true; w_strip := fun b => b; w_session := [] |}.
Definition ex_autos (_ : exe) (_ : str) : list bytes := [lit "0"; lit "1"].
Definition ex_ho (consolidate reset_all : bool) (replay : option object) : opts :=
  {| o_backtrace := false; o_consolidate := consolidate; o_consolidate_all := false; o_coverage := None;
     o_cpus := None; o_display := None; o_exact := consolidate; o_exit_code := false; o_list := false;
     o_max_total_time := None; o_no_run := false; o_no_ui := true; o_persistent := false;
     o_pretty := false; o_replay := replay; o_reset := false; o_reset_all := reset_all; o_resume := false;
     o_run_until_crash := false; o_slice := 1200%N; o_timeout := None;
     o_features := []; o_manifest_path := None; o_no_default_features := false; o_package := None;
     o_release := false; o_test := None; o_verbose := false; o_ztarget := if consolidate then Some (lit "f") else None; o_zzargs := [] |}.
Definition ex_corpus (tg : str) : path := [lit "t"; lit "corpus"; lit "k::" ++ tg].
Definition ex_output (tg : str) : path := [lit "t"; lit "afl"; lit "output"; lit "k::" ++ tg].
Definition ex_dirs (m : fs) : fs :=
  fold_left (fun m sub => (create_dir_all m (ex_output (lit "f") ++ [lit "default"; sub])).1) [lit "crashes"; lit "hangs"; lit "queue"] m.
Definition ex_found (m : fs) : fs := <[ex_output (lit "f") ++ [lit "default"; lit "crashes"; lit "id:0"] := File (lit "boom")]> (ex_dirs m).
Definition ex_first : list event := [Recorded (ex_corpus (lit "f")) (lit "hi")].
Definition ex_history : list event :=
  ex_first ++ [Fuzzed None (lit "k") (lit "f") (ex_found (history ∅ ex_first)); Invoked ex_hw (ex_ho true false None);
               Invoked ex_hw (ex_ho false false None); Invoked ex_hw (ex_ho false true None); Recorded (ex_corpus (lit "f")) (lit "more")].

Lemma ex_possible o m : possible [lit "t"] ex_autos m (Invoked ex_hw o) <-> True.
Proof.
  split; [auto|]. intros _. split; [reflexivity|]. split; [apply Consolidate.real_io_ok|]. split; [reflexivity|].
  intros m' x t. exists 2. reflexivity.
Qed.

Lemma ex_dir_possible (sub : str) (m : fs) (p : path) : is_prefix (ex_output (lit "f")) p = false ->
  let m' := (create_dir_all m (ex_output (lit "f") ++ [lit "default"; sub])).1 in
  m' !! p = m !! p \/ under p (ex_output (lit "f")) /\ m !! p = None /\ m' !! p = Some Dir.
Proof.
  intros U m'. destruct (m !! p) as [n|] eqn:M; [left; now apply create_dir_all_keep|]. destruct (m' !! p) as [n|] eqn:C; [|now left].
  pose proof C as C'. apply create_dir_all_new in C' as [K|(-> & _ & P)]; [congruence|]. right. split; [|auto].
  apply is_prefix_spec in P as [q P]. destruct p as [|a [|b [|c [|d p]]]].
  + eexists. reflexivity.
  + inversion P. subst. eexists. reflexivity.
  + inversion P. subst. eexists. reflexivity.
  + inversion P. subst. eexists. reflexivity.
  + inversion P. subst. vm_compute in U. discriminate U.
Qed.

Lemma ex_found_possible m : possible [lit "t"] ex_autos m (Fuzzed None (lit "k") (lit "f") (ex_found m)).
Proof.
  intros p. destruct (is_prefix (ex_output (lit "f")) p) eqn:U.
  - right. exists (ex_output (lit "f")). split; [reflexivity|]. left. now apply is_prefix_spec.
  - unfold ex_found. rewrite lookup_insert_ne by (intros <-; discriminate U). unfold ex_dirs. cbn [fold_left].
    set (m1 := (create_dir_all m _).1). set (m2 := (create_dir_all m1 _).1).
    pose proof (ex_dir_possible (lit "crashes") m p U) as H1. pose proof (ex_dir_possible (lit "hangs") m1 p U) as H2. pose proof (ex_dir_possible (lit "queue") m2 p U) as H3.
    cbv zeta in H1, H2, H3. fold m1 in H1. fold m2 in H2.
    destruct H1 as [H1|(U1 & H1 & K1)], H2 as [H2|(U2 & H2 & K2)], H3 as [H3|(U3 & H3 & K3)]; try congruence;
      try (left; congruence); right; exists (ex_output (lit "f")); (split; [reflexivity|right]); (split; [assumption|split; congruence]).
Qed.

Definition unique_b (b : bytes) (m : fs) : bool :=
  forallb (fun pn => match snd pn with File b' => str_eqb b' b || negb (str_eqb (sha1 b') (sha1 b)) | Dir => true end) (map_to_list m).
Lemma unique_b_ok b m : unique_b b m = true -> unique b m.
Proof.
  intros H p b' L E. unfold unique_b in H. rewrite forallb_forall in H. apply elem_of_map_to_list, elem_of_list_In, H in L. cbn [snd] in L.
  unfold str_eqb in L. destruct (str_dec b' b) as [K|K]; [exact K|]. destruct (str_dec (sha1 b') (sha1 b)) as [|N]; [discriminate L|contradiction].
Qed.

Example C101_example :
  plausible [lit "t"] ex_autos ∅ ex_history /\
  always_unique (lit "boom") (history ∅ (firstn 2 ex_history)) (skipn 2 ex_history) /\
  let m := history ∅ ex_history in
  map (fun tg => List.filter (fun b => match fs_read m (ex_corpus tg ++ [corpus_name b]) with Some b' => str_eqb b' b | None => false end) [lit "hi"; lit "boom"; lit "more"; lit "0"; lit "1"]) [lit "f"; lit "g"]
    = [[lit "hi"; lit "boom"; lit "more"]; [lit "0"; lit "1"]] /\
  exists_ m (ex_output (lit "f")) = false /\
  snd (run ex_hw (ex_ho true false None) (history ∅ (firstn 2 ex_history))) = ROk tt /\
  match run ex_hw (ex_ho false false (Some Corpus_)) (history ∅ (firstn 5 ex_history)) with
  | (_, t, r) => (flat_map (fun a => match a with ATarget _ tg _ es => [(tg, map (fun n => str_eqb n (corpus_name (lit "boom"))) (Entries.started es))] | _ => [] end) t, r)
  end = ([(lit "f", [true; false]); (lit "g", [])], ROk tt).
Proof.
  split; [|split].
  - cbn [plausible ex_history ex_first app]. split; [exists None, Corpus, (lit "k::f_fuzz__::Args"); split; [discriminate|reflexivity]|].
    split; [apply ex_found_possible|]. do 3 (split; [now apply ex_possible|]). split; [|exact I].
    exists None, Corpus, (lit "k::f_fuzz__::Args"). split; [discriminate|reflexivity].
  - intros h1 h2 E. apply unique_b_ok.
    destruct h1 as [|e1 [|e2 [|e3 [|e4 [|e5 h1]]]]]; cbn [ex_history ex_first app skipn firstn] in E; inversion E; subst; vm_compute; reflexivity.
  - vm_compute. auto.
Qed.
