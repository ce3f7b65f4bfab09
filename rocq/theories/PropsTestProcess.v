(** C119: what harnesses that share a process do to each other and to other tests. *)
From Coq Require Import Ascii String List Bool Arith Lia.
From Verif Require Import Base Env Harness TestProcess.
Import ListNotations.

(** Whoever installs the aborting hook removes it, unless stopped before. *)
Definition guarded (l : list op) : Prop := forall l1 l2, l = l1 ++ SetAbort :: l2 -> In Take l2.

(** Stderr can be written to all the time. *)
Definition writable (sched : list (nat * bool)) : Prop := forall t w, In (t, w) sched -> w = true.
(** It never can. *)
Definition unwritable (sched : list (nat * bool)) : Prop := forall t w, In (t, w) sched -> w = false.

Definition all_ended (p : proc) : Prop := forall t s, nth_error (p_tests p) t = Some s -> ended s.

(** The warning is given first if at all. *)
Definition warns_first (l : list op) : Prop := ~ In Warn (tl l).

Lemma run_inv (on : bool) (I : proc -> Prop) (ok : nat * bool -> Prop) progs sched :
  I (start progs) -> (forall p x, I p -> ok x -> I (step on p x)) -> (forall x, In x sched -> ok x) -> I (run on progs sched).
Proof.
  unfold run. intros H0 Hs. generalize (start progs) H0. clear H0. induction sched as [|x sched IH]; intros p H O; [exact H|].
  cbn [fold_left]. apply IH; [|intros y I'; apply O; now right]. apply Hs; [exact H|]. apply O. now left.
Qed.

(** ** Verdicts *)

Definition sound (l : list op) (s : test) : Prop :=
  match s with
  | Doing l' | Inside l' => exists d, l = d ++ l' /\ ~ In Panics d
  | Passed => ~ In Panics l
  | Failed => In Panics l
  end.

Definition verdict_inv (progs : list (list op)) (p : proc) : Prop :=
  p_once p <> OPoisoned /\
  forall t s, nth_error (p_tests p) t = Some s -> exists l, nth_error progs t = Some l /\ sound l s.

Lemma sound_next l o l' s :
  sound l (Doing (o :: l')) -> o <> Panics -> (s = Doing l' \/ s = Inside l') -> sound l s.
Proof.
  intros (d & -> & N) No [->| ->]; exists (d ++ [o]); rewrite <- app_assoc; (split; [reflexivity|]);
    rewrite in_app_iff; intros [K|[K|[]]]; auto.
Qed.

Lemma verdict_step on progs p t :
  verdict_inv progs p -> verdict_inv progs (step on p (t, true)).
Proof.
  intros V0. pose proof V0 as (O & V). unfold step. destruct (p_dead p); [exact V0|].
  destruct (nth_error (p_tests p) t) as [s|] eqn:N; [|exact V0].
  destruct (V _ _ N) as (l & L & S0).
  assert (K : forall s' p', p_once p' <> OPoisoned -> p_tests p' = p_tests p -> sound l s' -> verdict_inv progs (advance t s' p')).
  { intros s' p' O' T S'. split; [exact O'|]. intros t' s1. cbn [advance p_tests]. rewrite T, (put_at _ _ _ _ _ N).
    destruct (Nat.eqb_spec t t') as [<-|_]; [|apply V]. intros [= <-]. eauto. }
  assert (D : verdict_inv progs (die p)) by (split; auto).
  destruct s as [[|o l0]|l0| |]; try exact V0.
  - apply K; auto. cbn [sound] in *. destruct S0 as (d & -> & Nd). now rewrite app_nil_r.
  - destruct o; try (apply K; auto; eapply sound_next; [exact S0|discriminate|auto]; fail).
    + destruct (p_once p) eqn:Oe; try exact V0; try congruence;
        (apply K; [cbn; congruence|reflexivity|eapply sound_next; [exact S0|discriminate|auto]]).
    + unfold panic. destruct (p_hook p); auto; (apply K; auto; eapply sound_next; [exact S0|discriminate|auto]).
    + destruct S0 as (d & -> & _).
      unfold panic. destruct (p_hook p); auto; (apply K; auto; cbn; rewrite in_app_iff; right; now left).
  - destruct on; (apply K; [cbn; discriminate|reflexivity|exact S0]).
Qed.

Lemma verdict_run on progs sched : writable sched -> verdict_inv progs (run on progs sched).
Proof.
  intros W. apply (run_inv on _ (fun x => snd x = true)).
  - split; [discriminate|]. intros t s. cbn [start p_tests]. rewrite nth_error_map.
    destruct (nth_error progs t) as [l|]; [|discriminate]. intros [= <-]. exists l. split; [reflexivity|]. exists []. auto.
  - intros p [t w] I E. cbn in E. subst w. now apply verdict_step.
  - intros [t w] I. cbn. now apply (W t).
Qed.

(** C119: whatever other tests run in the process and however they take turns, as long as the
    process is not aborted and stderr can be written to, a test that has ended has passed
    exactly if it does not panic. *)
Theorem C119_verdicts :
  forall (on : bool) (progs : list (list op)) (sched : list (nat * bool)) (t : nat) (l : list op) (s : test),
    writable sched -> nth_error progs t = Some l -> nth_error (p_tests (run on progs sched)) t = Some s ->
    (s = Passed -> ~ In Panics l) /\ (s = Failed -> In Panics l).
Proof.
  intros on progs sched t l s W L N. destruct (verdict_run on progs sched W) as (_ & V).
  destruct (V _ _ N) as (l' & L' & S0). assert (l' = l) as -> by congruence. split; intros ->; exact S0.
Qed.
Print Assumptions C119_verdicts.

(** ** Aborts *)

Definition mentions (o : op) (progs : list (list op)) : Prop := exists l, In l progs /\ In o l.

Definition suffix_inv (progs : list (list op)) (p : proc) : Prop :=
  forall t s, nth_error (p_tests p) t = Some s -> exists l d, nth_error progs t = Some l /\ (rest s = [] \/ l = d ++ rest s).

Lemma suffix_step on progs p x : suffix_inv progs p -> suffix_inv progs (step on p x).
Proof.
  intros V. destruct x as [t w]. unfold step. destruct (p_dead p); [exact V|].
  destruct (nth_error (p_tests p) t) as [s|] eqn:N; [|exact V].
  destruct (V _ _ N) as (l & d & L & S0).
  assert (K : forall s' p', p_tests p' = p_tests p -> (rest s' = [] \/ exists d', l = d' ++ rest s') -> suffix_inv progs (advance t s' p')).
  { intros s' p' T S' t' s1. cbn [advance p_tests]. rewrite T, (put_at _ _ _ _ _ N).
    destruct (Nat.eqb_spec t t') as [<-|_]; [|apply V]. intros [= <-]. destruct S' as [S'|(d' & S')]; [exists l, []|exists l, d']; auto. }
  assert (Nx : forall o l', rest s = o :: l' -> exists d', l = d' ++ l').
  { intros o l' E. rewrite E in S0. destruct S0 as [S0|S0]; [discriminate|]. exists (d ++ [o]). now rewrite <- app_assoc. }
  destruct s as [[|o l0]|l0| |]; try exact V; cbn [rest] in *.
  - apply K; auto.
  - specialize (Nx o l0 eq_refl). unfold panic. destruct o; try (destruct (p_once p)); try (destruct (p_hook p)); try exact V; apply K; auto.
  - assert (Q : l0 = [] \/ exists d', l = d' ++ l0) by (destruct S0; eauto).
    destruct on; [|destruct w]; unfold panic; cbn [p_hook set_once]; try (destruct (p_hook p)); try exact V; apply K; auto.
Qed.

Lemma suffix_start progs : suffix_inv progs (start progs).
Proof.
  intros t s. cbn [start p_tests]. rewrite nth_error_map. destruct (nth_error progs t) as [l|]; [|discriminate]. intros [= <-].
  exists l, []. auto.
Qed.

(** The test that is between installing and removing the hook. *)
Definition hooked (p : proc) : Prop := exists t s, nth_error (p_tests p) t = Some s /\ In Take (rest s).

Lemma hook_step on progs p x :
  (forall l, In l progs -> guarded l) -> suffix_inv progs p -> (p_hook p = HkAbort -> hooked p) ->
  p_hook (step on p x) = HkAbort -> hooked (step on p x).
Proof.
  intros G V H. destruct x as [t w]. unfold step. destruct (p_dead p); [exact H|].
  destruct (nth_error (p_tests p) t) as [s|] eqn:N; [|exact H].
  assert (K : forall s' p', p_tests p' = p_tests p -> p_hook p' = p_hook p ->
     (In Take (rest s) -> In Take (rest s')) -> p_hook (advance t s' p') = HkAbort -> hooked (advance t s' p')).
  { intros s' p' T Hk S' Q. cbn [advance p_hook] in Q. rewrite Hk in Q. destruct (H Q) as (t' & s1 & N1 & I1).
    destruct (Nat.eq_dec t t') as [<-|Ne].
    - exists t, s'. cbn [advance p_tests]. rewrite T, (put_at _ _ _ _ _ N), Nat.eqb_refl. split; [reflexivity|]. apply S'. congruence.
    - exists t', s1. cbn [advance p_tests]. rewrite T, put_other by exact Ne. auto. }
  destruct s as [[|o l0]|l0| |]; try exact H; cbn [rest] in *.
  - apply K; auto.
  - destruct o; unfold panic.
    + destruct (p_once p); try exact H; try (apply K; [reflexivity|reflexivity|cbn [rest In]; intros [[=]|?]; auto]; fail).
      destruct (p_hook p) eqn:Hk; [|intros _; exact (H eq_refl)|]; intros Q; cbn in Q; congruence.
    + intros _. destruct (V _ _ N) as (l & d & L & [S0|S0]); [discriminate S0|].
      exists t, (Doing l0). cbn [advance p_tests set_hook]. rewrite (put_at _ _ _ _ _ N), Nat.eqb_refl. split; [reflexivity|].
      cbn [rest]. apply (G l (nth_error_In _ _ L) d). exact S0.
    + discriminate.
    + discriminate.
    + destruct (p_hook p) eqn:Hk; [|intros _; exact (H eq_refl)|]; intros Q; cbn in Q; congruence.
    + destruct (p_hook p) eqn:Hk; [|intros _; exact (H eq_refl)|]; intros Q; cbn in Q; congruence.
  - destruct on; [|destruct w]; try (apply K; [reflexivity|reflexivity|auto]).
    unfold panic. cbn [p_hook set_once]. destruct (p_hook p) eqn:Hk; [|intros _; exact (H eq_refl)|]; intros Q; cbn in Q; congruence.
Qed.

Definition abort_inv (progs : list (list op)) (p : proc) : Prop :=
  suffix_inv progs p /\ p_once p <> OPoisoned /\ (p_hook p = HkAbort -> mentions SetAbort progs) /\
  (p_dead p = true -> p_hook p = HkAbort /\ (mentions Panics progs \/ mentions Caught progs)).

Lemma abort_step on progs p t : abort_inv progs p -> abort_inv progs (step on p (t, true)).
Proof.
  intros (V & O & H & D). pose proof (suffix_step on progs p (t, true) V) as V'. split; [exact V'|]. clear V'.
  pose proof (conj O (conj H D)) as Z.
  unfold step. case_eq (p_dead p); intros De; [exact Z|].
  destruct (nth_error (p_tests p) t) as [s|] eqn:N; [|exact Z].
  assert (M : forall o l0, rest s = o :: l0 -> mentions o progs).
  { intros o l0 E. destruct (V _ _ N) as (l & d & L & [S0|S0]); [congruence|]. exists l. split; [eapply nth_error_In, L|].
    rewrite S0, E, in_app_iff. right. now left. }
  destruct s as [[|o l0]|l0| |]; try exact Z; cbn [rest] in *.
  - destruct o; specialize (M _ l0 eq_refl); unfold panic.
    + case_eq (p_once p); [| |intros Oe|congruence]; intros; try exact Z;
        (split; [cbn; congruence|]; exact (proj2 Z)).
    + cbn. split; [exact O|]. split; [auto|]. congruence.
    + cbn. split; [exact O|]. split; [discriminate|]. congruence.
    + cbn. split; [exact O|]. split; [discriminate|]. congruence.
    + destruct (p_hook p) eqn:Hk; cbn; (split; [exact O|]; split; [rewrite Hk; auto|]; rewrite ?De; auto; try discriminate).
    + destruct (p_hook p) eqn:Hk; cbn; (split; [exact O|]; split; [rewrite Hk; auto|]; rewrite ?De; auto; try discriminate).
  - destruct on; (split; [discriminate|exact (proj2 Z)]).
Qed.

(** C119: the process is aborted only if some test panics (caught or not) while some harness is
    between installing and removing its panic hook.  So if no test panics nothing is aborted, and
    without fuzzing harnesses (in particular in an ordinary [cargo test]) nothing is aborted
    whatever panics. *)
Theorem C119_abort :
  forall (on : bool) (progs : list (list op)) (sched : list (nat * bool)),
    writable sched -> (forall l, In l progs -> guarded l) -> p_dead (run on progs sched) = true ->
    (mentions Panics progs \/ mentions Caught progs) /\ mentions SetAbort progs /\ hooked (run on progs sched).
Proof.
  intros on progs sched W G D.
  assert (A : abort_inv progs (run on progs sched)).
  { apply (run_inv on _ (fun x => snd x = true)); [|intros p [t w] I E; cbn in E; subst w; now apply abort_step|intros [t w] I; cbn; now apply (W t)].
    split; [apply suffix_start|]. repeat split; cbn; discriminate. }
  destruct A as (V & _ & H & De). destruct (De D) as (Hk & P). split; [exact P|]. split; [auto|].
  revert Hk. apply (run_inv on (fun p => suffix_inv progs p /\ (p_hook p = HkAbort -> hooked p)) (fun _ => True)); auto.
  - split; [apply suffix_start|]. cbn. discriminate.
  - intros p x (V' & H') _. split; [now apply suffix_step|]. eapply hook_step; eauto.
Qed.
Print Assumptions C119_abort.

(** C119: when all tests have ended, the aborting hook is not installed any more, however they
    took turns. *)
Theorem C119_hook_removed :
  forall (on : bool) (progs : list (list op)) (sched : list (nat * bool)),
    (forall l, In l progs -> guarded l) -> all_ended (run on progs sched) -> p_hook (run on progs sched) <> HkAbort.
Proof.
  intros on progs sched G E Hk.
  assert (K : hooked (run on progs sched)).
  { revert Hk. apply (run_inv on (fun p => suffix_inv progs p /\ (p_hook p = HkAbort -> hooked p)) (fun _ => True)); auto.
    - split; [apply suffix_start|]. cbn. discriminate.
    - intros p x (V' & H') _. split; [now apply suffix_step|]. eapply hook_step; eauto. }
  destruct K as (t & s & N & I). destruct (E _ _ N) as [->| ->]; destruct I.
Qed.
Print Assumptions C119_hook_removed.

(** ** The warning *)

Definition warn_inv (on : bool) (progs : list (list op)) (p : proc) : Prop :=
  (forall t l, nth_error progs t = Some (Warn :: l) -> p_once p = ONew -> nth_error (p_tests p) t = Some (Doing (Warn :: l))) /\
  (forall t, p_once p = ORunning t <-> exists l, nth_error (p_tests p) t = Some (Inside l)) /\
  (p_once p <> ONew -> mentions Warn progs) /\
  p_said p = (match p_once p with ODone => if on then 0 else 1 | _ => 0 end) /\
  suffix_inv progs p.

Lemma warn_start on progs : warn_inv on progs (start progs).
Proof.
  split; [intros t l E _; cbn; now rewrite nth_error_map, E|]. split.
  { intros t. cbn. rewrite nth_error_map. split; [discriminate|]. intros (l & E). destruct (nth_error progs t); discriminate. }
  split; [now intros []|]. split; [reflexivity|apply suffix_start].
Qed.

Lemma warn_step on progs p x :
  (forall t w, x = (t, w) -> on = false -> w = true) -> p_once p <> OPoisoned -> warn_inv on progs p ->
  warn_inv on progs (step on p x) /\ p_once (step on p x) <> OPoisoned.
Proof.
  intros W NP I0. pose proof I0 as (A & B & C & D & V). destruct x as [t w]. specialize (W t w eq_refl).
  assert (VS := suffix_step on progs p (t, w) V). revert VS.
  unfold step. case_eq (p_dead p); intros De; [now split|].
  destruct (nth_error (p_tests p) t) as [s|] eqn:N; [|now split].
  assert (M : forall o l0, rest s = o :: l0 -> mentions o progs).
  { intros o l0 E. destruct (V _ _ N) as (l & d & L & [S0|S0]); [congruence|]. exists l. split; [eapply nth_error_In, L|].
    rewrite S0, E, in_app_iff. right. now left. }
  (* a step that leaves the [Once] alone *)
  assert (K : forall s' p', p_tests p' = p_tests p -> p_once p' = p_once p -> p_said p' = p_said p ->
     (forall l, s <> Inside l) -> (forall l, s' <> Inside l) -> (p_once p = ONew -> forall l, s <> Doing (Warn :: l)) ->
     suffix_inv progs (advance t s' p') -> warn_inv on progs (advance t s' p') /\ p_once (advance t s' p') <> OPoisoned).
  { intros s' p' T O S0 N1 N2 N3 VS. split; [|cbn; congruence]. split; [|split; [|split; [|split]]]; cbn [advance p_tests p_once p_said]; rewrite ?T, ?O, ?S0; auto.
    - intros t' l L On. rewrite (put_at _ _ _ _ _ N). destruct (Nat.eqb_spec t t') as [<-|_]; [|now apply A].
      exfalso. apply (N3 On l). pose proof (A _ _ L On). congruence.
    - intros t'. rewrite B, (put_at _ _ _ _ _ N). destruct (Nat.eqb_spec t t') as [<-|_]; [|tauto].
      split; intros (l & E); exfalso; [apply (N1 l)|apply (N2 l)]; congruence. }
  destruct s as [[|o l0]|l0| |]; try (intros _; now split).
  - intros VS. apply K; auto; discriminate.
  - specialize (M o l0 eq_refl). destruct o; unfold panic.
    + case_eq (p_once p); [intros Oe|intros t' Oe|intros Oe|congruence]; intros VS; try (now split).
      * split; [|discriminate]. split; [|split; [|split; [|split]]]; cbn [advance set_once p_tests p_once p_said]; auto; try discriminate.
        -- intros t'. rewrite (put_at _ _ _ _ _ N). destruct (Nat.eqb_spec t t') as [<-|Ne]; [split; [eauto|reflexivity]|].
           split; [congruence|]. intros K'. apply B in K'. congruence.
        -- rewrite D, Oe. reflexivity.
      * apply K; auto; try discriminate. congruence.
    + intros VS. apply K; auto; discriminate.
    + intros VS. apply K; auto; discriminate.
    + intros VS. apply K; auto; discriminate.
    + destruct (p_hook p); intros VS; try (now split); apply K; auto; discriminate.
    + destruct (p_hook p); intros VS; try (now split); apply K; auto; discriminate.
  - assert (O : p_once p = ORunning t) by (apply B; eauto). rewrite O in D.
    assert (Q : forall n p', p' = advance t (Doing l0) (set_once ODone n p) -> n = (if on then 0 else 1) -> suffix_inv progs p' ->
                  warn_inv on progs p' /\ p_once p' <> OPoisoned).
    { intros n p' -> En VS. split; [|discriminate]. split; [|split; [|split; [|split]]]; cbn [advance set_once p_tests p_once p_said]; auto; try discriminate.
      - intros t'. rewrite (put_at _ _ _ _ _ N). destruct (Nat.eqb_spec t t') as [<-|Ne].
        + split; [discriminate|]. intros (l & [=]).
        + split; [discriminate|]. intros K'. apply B in K'. congruence.
      - intros _. apply C. congruence. }
    destruct on; [|rewrite (W eq_refl)]; intros VS; eapply Q; eauto; now rewrite D.
Qed.

Lemma warn_run on progs sched : (on = false -> writable sched) -> warn_inv on progs (run on progs sched) /\ p_once (run on progs sched) <> OPoisoned.
Proof.
  intros W. apply (run_inv on (fun p => warn_inv on progs p /\ p_once p <> OPoisoned) (fun x => on = false -> snd x = true)).
  - split; [apply warn_start|discriminate].
  - intros p x (I & O) E. apply warn_step; auto. intros t w -> F. now apply E.
  - intros [t w] I F. now apply (W F t).
Qed.

(** C119: the warning is given at most once and never with TEST_FUZZ on; when all tests have ended it
    has been given exactly if TEST_FUZZ is off and one of them was a harness.  (The unit test of
    cargo-test-fuzz/src/lib.rs:1541-1572 looks for it.) *)
Theorem C119_warning :
  forall (on : bool) (progs : list (list op)) (sched : list (nat * bool)),
    (on = false -> writable sched) -> (forall l, In l progs -> warns_first l) ->
    let p := run on progs sched in
    p_said p <= 1 /\ (on = true -> p_said p = 0) /\
    (all_ended p -> (p_said p = 1 <-> on = false /\ exists l, In (Warn :: l) progs)).
Proof.
  intros on progs sched W F p. destruct (warn_run on progs sched W) as ((A & B & C & D & _) & O). fold p in A, B, C, D, O.
  split; [destruct (p_once p), on; lia|]. split; [intros ->; destruct (p_once p); lia|].
  intros E. rewrite D. split.
  - intros K. destruct (p_once p) eqn:Oe; try discriminate K. destruct on; [discriminate K|]. split; [reflexivity|].
    destruct C as (l & I & J); [discriminate|]. destruct l as [|o l]; [destruct J|]. destruct J as [->|J]; [eauto|]. elim (F _ I J).
  - intros (-> & l & I). apply In_nth_error in I as (t & I). destruct (p_once p) eqn:Oe; [| |reflexivity|congruence].
    + pose proof (A _ _ I eq_refl) as K. apply E in K as [K|K]; discriminate.
    + destruct (proj1 (B t0) eq_refl) as (l' & K). apply E in K as [K|K]; discriminate.
Qed.
Print Assumptions C119_warning.

(** C119: if stderr cannot be written to (a closed pipe, say), no harness of an ordinary [cargo test] passes: the
    first one panics while it warns, and that makes all others panic. *)
Theorem C119_broken_stderr :
  forall (progs : list (list op)) (sched : list (nat * bool)),
    unwritable sched -> (forall l, In l progs -> exists l', l = Warn :: l') ->
    forall t, nth_error (p_tests (run false progs sched)) t <> Some Passed.
Proof.
  intros progs sched W F.
  assert (I : forall p, p = run false progs sched -> p_once p <> ODone /\ forall t s, nth_error (p_tests p) t = Some s -> s = Failed \/ (exists l, s = Doing (Warn :: l)) \/ (exists l, s = Inside l)).
  { intros p ->. apply (run_inv false (fun p => p_once p <> ODone /\ forall t s, nth_error (p_tests p) t = Some s -> s = Failed \/ (exists l, s = Doing (Warn :: l)) \/ (exists l, s = Inside l)) (fun x => snd x = false)).
    - split; [discriminate|]. intros t s. cbn. rewrite nth_error_map. destruct (nth_error progs t) as [l|] eqn:L; [|discriminate].
      intros [= <-]. apply nth_error_In, F in L as (l' & ->). right. left. eauto.
    - intros p [t w] I0 E. cbn in E. subst w. pose proof I0 as (O & V). unfold step. destruct (p_dead p); [exact I0|].
      destruct (nth_error (p_tests p) t) as [s|] eqn:N; [|exact I0].
      assert (K : forall s' p', p_tests p' = p_tests p -> p_once p' <> ODone -> (s' = Failed \/ (exists l, s' = Doing (Warn :: l)) \/ (exists l, s' = Inside l)) ->
        p_once (advance t s' p') <> ODone /\ forall t1 s1, nth_error (p_tests (advance t s' p')) t1 = Some s1 -> s1 = Failed \/ (exists l, s1 = Doing (Warn :: l)) \/ (exists l, s1 = Inside l)).
      { intros s' p' T O' S'. split; [exact O'|]. intros t1 s1. cbn [advance p_tests]. rewrite T, (put_at _ _ _ _ _ N).
        destruct (Nat.eqb_spec t t1); [|apply V]. now intros [= <-]. }
      destruct (V _ _ N) as [->|[(l & ->)|(l & ->)]]; [exact I0| |].
      + case_eq (p_once p); [intros Oe|intros ? Oe|congruence|intros Oe].
        * apply K; [reflexivity|discriminate|eauto].
        * exact I0.
        * unfold panic. destruct (p_hook p); [|exact I0|]; apply K; auto.
      + unfold panic. cbn [p_hook set_once]. destruct (p_hook p); try (apply K; [reflexivity|discriminate|auto]).
        split; [discriminate|exact V].
    - intros [t w] J. cbn. now apply (W t). }
  intros t N. destruct (proj2 (I _ eq_refl) _ _ N) as [K|[(l & K)|(l & K)]]; discriminate.
Qed.
Print Assumptions C119_broken_stderr.

(** ** The tests come to an end *)

Definition weight (s : test) : nat :=
  match s with Doing l => 2 * length l + 1 | Inside l => 2 * length l + 2 | _ => 0 end.
Definition total (p : proc) : nat := list_sum (map weight (p_tests p)).

Lemma put_weight l t s s0 : nth_error l t = Some s0 -> weight s < weight s0 ->
  list_sum (map weight (put t s l)) < list_sum (map weight l).
Proof.
  revert t. induction l as [|a l IH]; intros [|t] N W; cbn in *; try discriminate.
  - injection N as <-. lia.
  - specialize (IH t N W). unfold list_sum in *. lia.
Qed.

Definition running_inv (p : proc) : Prop :=
  forall t, p_once p = ORunning t -> exists l, nth_error (p_tests p) t = Some (Inside l).

Lemma running_step on p x : running_inv p -> running_inv (step on p x).
Proof.
  intros I. destruct x as [t w]. unfold step. destruct (p_dead p); [exact I|].
  destruct (nth_error (p_tests p) t) as [s|] eqn:N; [|exact I].
  assert (K : forall s' p', p_tests p' = p_tests p -> p_once p' = p_once p -> (forall l, s <> Inside l) -> running_inv (advance t s' p')).
  { intros s' p' T O Ni t' Q. cbn [advance p_once p_tests] in *. rewrite O in Q. destruct (I _ Q) as (l & E). rewrite T.
    destruct (Nat.eq_dec t t') as [<-|Ne]; [elim (Ni l); congruence|]. exists l. now rewrite put_other. }
  destruct s as [[|o l0]|l0| |]; try exact I; try (apply K; auto; discriminate).
  - destruct o; unfold panic; try (apply K; auto; discriminate).
    + case_eq (p_once p); [intros Oe|intros ? Oe|intros Oe|intros Oe]; try exact I; try (apply K; auto; discriminate).
      * intros t' Q. cbn in Q. injection Q as <-. exists l0. cbn [advance p_tests set_once]. now rewrite (put_at _ _ _ _ _ N), Nat.eqb_refl.
      * destruct (p_hook p); try exact I; apply K; auto; discriminate.
    + destruct (p_hook p); try exact I; apply K; auto; discriminate.
    + destruct (p_hook p); try exact I; apply K; auto; discriminate.
  - destruct on; [|destruct w]; unfold panic; cbn [p_hook set_once]; try (destruct (p_hook p)); intros t' Q; cbn in Q; discriminate.
Qed.

Lemma progress on p :
  running_inv p -> p_dead p = false -> ~ all_ended p -> exists t, p_dead (step on p (t, true)) = true \/ total (step on p (t, true)) < total p.
Proof.
  intros I D E.
  assert (X : exists t s, nth_error (p_tests p) t = Some s /\ ~ ended s).
  { clear - E. assert (H : forall l, (forall t s, nth_error l t = Some s -> ended s) \/ exists t s, nth_error l t = Some s /\ ~ ended s).
    { induction l as [|a l IH]; [left; intros [|t] s [=]|]. destruct IH as [IH|(t & s & N & Q)]; [|right; exists (S t), s; auto].
      destruct a; try (right; eexists 0, _; split; [reflexivity|]; intros [K|K]; discriminate K).
      - left. intros [|t] s N; [injection N as <-; now left|exact (IH _ _ N)].
      - left. intros [|t] s N; [injection N as <-; now right|exact (IH _ _ N)]. }
    destruct (H (p_tests p)) as [H1|H1]; [elim E; exact H1|exact H1]. }
  assert (Y : exists t s, nth_error (p_tests p) t = Some s /\ ~ ended s /\ ((exists t', p_once p = ORunning t') -> exists l, s = Inside l)).
  { destruct (p_once p) as [|t'| |] eqn:O; try (destruct X as (t & s & N & Q); exists t, s; repeat split; auto; intros (t' & [=])).
    destruct (I t' O) as (l & N). exists t', (Inside l). split; [exact N|]. split; [intros [[=]|[=]]|eauto]. }
  destruct Y as (t & s & N & Q & R). exists t. unfold step. rewrite D, N. unfold total.
  destruct s as [[|o l]|l| |]; try (elim Q; (now left) || (now right)); cbn [advance p_tests].
  - right. eapply put_weight; [exact N|]. cbn. lia.
  - destruct o; unfold panic.
    + destruct (p_once p) as [|t'| |].
      * right. cbn [advance set_once p_tests]. eapply put_weight; [exact N|]. cbn. lia.
      * destruct R as (l' & [=]). eauto.
      * right. cbn [advance p_tests]. eapply put_weight; [exact N|]. cbn. lia.
      * destruct (p_hook p); [right|now left|right]; cbn [advance p_tests]; (eapply put_weight; [exact N|]; cbn; lia).
    + right. cbn [advance set_hook p_tests]. eapply put_weight; [exact N|]. cbn. lia.
    + right. cbn [advance set_hook p_tests]. eapply put_weight; [exact N|]. cbn. lia.
    + right. cbn [advance set_hook p_tests]. eapply put_weight; [exact N|]. cbn. lia.
    + destruct (p_hook p); [right|now left|right]; cbn [advance p_tests]; (eapply put_weight; [exact N|]; cbn; lia).
    + destruct (p_hook p); [right|now left|right]; cbn [advance p_tests]; (eapply put_weight; [exact N|]; cbn; lia).
  - right. destruct on; cbn [advance set_once p_tests]; (eapply put_weight; [exact N|]; cbn; lia).
Qed.

(** C119: however the tests have taken turns so far, they can still come to an end; none waits
    forever for another. *)
Theorem C119_ends :
  forall (on : bool) (progs : list (list op)) (sched : list (nat * bool)),
    exists more, writable more /\ let p := run on progs (sched ++ more) in p_dead p = true \/ all_ended p.
Proof.
  intros on progs sched.
  assert (I : running_inv (run on progs sched)).
  { apply (run_inv on running_inv (fun _ => True)); auto; [intros t [=]|]. intros p x J _. now apply running_step. }
  unfold run in *. setoid_rewrite fold_left_app. revert I. generalize (fold_left (step on) sched (start progs)). intros p.
  remember (total p) as n eqn:E. revert p E. induction n as [n IH] using lt_wf_ind. intros p -> I.
  destruct (p_dead p) eqn:D; [exists []; split; [intros ? ? []|now left]|].
  destruct (list_eq_dec Bool.bool_dec (map (fun s => match s with Passed | Failed => true | _ => false end) (p_tests p))
                        (map (fun _ => true) (p_tests p))) as [Al|Nal].
  - exists []. split; [intros ? ? []|]. right. intros t s N. cbn in N.
    assert (K : nth_error (map (fun s => match s with Passed | Failed => true | _ => false end) (p_tests p)) t = Some true) by (rewrite Al, nth_error_map, N; reflexivity).
    rewrite nth_error_map, N in K. destruct s; cbn in K; try discriminate; [now left|now right].
  - assert (E : ~ all_ended p).
    { intros E. apply Nal. apply map_ext_in. intros s J. apply In_nth_error in J as (t & J). destruct (E _ _ J) as [->| ->]; reflexivity. }
    destruct (progress on p I D E) as (t & [P|P]).
    + exists [(t, true)]. split; [intros ? ? [[= <- <-]|[]]; reflexivity|]. now left.
    + destruct (IH _ P _ eq_refl (running_step on p _ I)) as (more & W & R). exists ((t, true) :: more).
      split; [intros ? ? [[= <- <-]|J]; [reflexivity|exact (W _ _ J)]|]. exact R.
Qed.
Print Assumptions C119_ends.

(** ** Harnesses *)

Lemma harness_guarded {A R : Type} (u : user A R) e nontrivial stdin : guarded (harness u e nontrivial stdin).
Proof.
  unfold harness. destruct (entry_body u e nontrivial stdin) as [[ev r] h]. cbn [snd]. intros l1 l2 E.
  assert (I : In SetAbort (Warn :: (if h then [SetAbort] else []) ++ (match r with Some _ => [] | None => [Panics] end) ++ (if h then [Take] else [])))
    by (rewrite E, in_app_iff; right; now left).
  destruct h; [|destruct r; cbn in I; decompose [or] I; try discriminate; contradiction].
  destruct l1 as [|a [|b l1]]; [discriminate E|injection E as _ <-; destruct r; cbn; auto|].
  exfalso. injection E as _ _ E. destruct r; cbn in E; destruct l1 as [|c l1]; try discriminate E; injection E as _ E; destruct l1 as [|c' l1]; try discriminate E;
    try (injection E as _ E); destruct l1; discriminate E.
Qed.

Lemma harness_warns_first {A R : Type} (u : user A R) e nontrivial stdin :
  warns_first (harness u e nontrivial stdin) /\ exists l, harness u e nontrivial stdin = Warn :: l.
Proof.
  unfold harness. destruct (entry_body u e nontrivial stdin) as [[ev r] h]. cbn [snd]. split; [|eauto].
  unfold warns_first. cbn [tl]. destruct h, r; cbn; intros I; decompose [or] I; try discriminate; contradiction.
Qed.

Lemma run_stable on p sched : (forall x, In x sched -> step on p x = p) -> fold_left (step on) sched p = p.
Proof.
  induction sched as [|x sched IH]; intros H; [reflexivity|]. cbn [fold_left]. rewrite (H x) by now left. apply IH. intros y I. apply H. now right.
Qed.

(** C119: a harness that is the only test of its process, as the tool runs it, ends as [entry]
    says; unless it is aborted, the panic hook is then as it was. *)
Theorem C119_alone :
  forall (A R : Type) (u : user A R) (e : env) (nontrivial : bool) (stdin : bytes) (sched : list (nat * bool)),
    (forall x, In x sched -> x = (0, true)) -> 6 <= length sched ->
    let p := run (test_fuzz_enabled e) [harness u e nontrivial stdin] sched in
    let verdict := snd (entry u e nontrivial stdin) in
    (p_dead p = true <-> verdict = HAbort) /\
    (p_tests p = [Passed] <-> verdict = HPass) /\ (p_tests p = [Failed] <-> verdict = HFail) /\
    (verdict <> HAbort -> p_hook p = HkDefault) /\
    (p_said p = 1 <-> test_fuzz_enabled e = false) .
Proof.
  intros A R u e nontrivial stdin sched H L. cbv zeta.
  assert (E : exists more, sched = repeat (0, true) 6 ++ more /\ forall x, In x more -> x = (0, true)).
  { assert (Q : sched = repeat (0, true) (length sched)).
    { clear L. induction sched as [|x sched IH]; [reflexivity|]. cbn [length repeat]. rewrite (H x) by now left. f_equal. apply IH. intros y I. apply H. now right. }
    replace (length sched) with (6 + (length sched - 6)) in Q by lia. rewrite repeat_app in Q. eexists. split; [exact Q|].
    intros x I. now apply repeat_spec in I. }
  destruct E as (more & -> & M). clear H L. unfold run. rewrite fold_left_app.
  unfold harness, entry. destruct (entry_body u e nontrivial stdin) as [[ev r] h] eqn:Eb. cbn [snd].
  assert (Ho : h = true -> test_fuzz_enabled e = true).
  { intros ->. revert Eb. unfold entry_body. destruct (test_fuzz_enabled e); [reflexivity|]. cbn. discriminate. }
  destruct (test_fuzz_enabled e) eqn:On.
  - destruct h, r as [[]|]; cbn [app repeat fold_left step start map p_dead p_tests nth_error p_once p_said p_hook advance set_once put set_hook panic die];
      (rewrite run_stable; [cbn; intuition congruence|intros x I; rewrite (M x I); reflexivity]).
  - destruct h; [now specialize (Ho eq_refl)|].
    destruct r as [[]|]; cbn [app repeat fold_left step start map p_dead p_tests nth_error p_once p_said p_hook advance set_once put set_hook panic die];
      (rewrite run_stable; [cbn; intuition congruence|intros x I; rewrite (M x I); reflexivity]).
Qed.
Print Assumptions C119_alone.

(** C119: in an ordinary [cargo test] harnesses abort nothing, whatever other tests do (unless
    they install such a hook themselves), and all of them pass. *)
Theorem C119_ordinary :
  forall (A R : Type) (us : list (user A R * bool * bytes)) (e : env) (others : list (list op)) (sched : list (nat * bool)),
    test_fuzz_enabled e = false -> writable sched -> (forall l, In l others -> ~ In SetAbort l) ->
    let progs := map (fun '(u, nontrivial, stdin) => harness u e nontrivial stdin) us ++ others in
    let p := run false progs sched in
    p_dead p = false /\
    (forall t s, t < length us -> nth_error (p_tests p) t = Some s -> s <> Failed) /\
    (all_ended p -> us <> [] -> (forall l, In l others -> ~ In Warn l) -> p_said p = 1).
Proof.
  intros A R us e others sched Off W O progs p.
  assert (Hp : forall u nt sd, harness (A := A) (R := R) u e nt sd = [Warn]).
  { intros u nt sd. unfold harness, entry_body. rewrite Off. reflexivity. }
  assert (Hl : forall l, In l progs -> l = [Warn] \/ In l others).
  { intros l I. apply in_app_iff in I as [I|I]; [|auto]. apply in_map_iff in I as ([[u nt] sd] & <- & _). left. apply Hp. }
  assert (NA : ~ mentions SetAbort progs).
  { intros (l & I & J). apply Hl in I as [->|I]; [destruct J as [[=]|[]]|exact (O _ I J)]. }
  split; [|split].
  - destruct (p_dead p) eqn:D; [|reflexivity]. destruct (C119_abort false progs sched W) as (_ & K & _); [|exact D|elim (NA K)].
    intros l I l1 l2 ->. elim NA. eexists. split; [exact I|]. rewrite in_app_iff. right. now left.
  - intros t s Lt N ->. assert (L : nth_error progs t = Some [Warn]).
    { unfold progs. rewrite nth_error_app1 by now rewrite map_length. rewrite nth_error_map.
      destruct (nth_error us t) as [[[u nt] sd]|] eqn:E; [cbn; now rewrite Hp|]. apply nth_error_None in E. lia. }
    destruct (C119_verdicts false progs sched t _ _ W L N) as (_ & K). specialize (K eq_refl). destruct K as [[=]|[]].
  - intros E Ne No. destruct (C119_warning false progs sched (fun _ => W)) as (_ & _ & K).
    + intros l I J. apply Hl in I as [->|I]; [exact J|]. apply (No _ I). destruct l; [exact J|now right].
    + apply (K E). split; [reflexivity|]. destruct us as [|[[u nt] sd] us']; [congruence|]. exists []. left. apply Hp.
Qed.
Print Assumptions C119_ordinary.

(** For the examples: an environment in which one fuzzes, and a target that panics on the input [p]. *)
Definition ex_on : env := fun k => if str_eqb k (lit "TEST_FUZZ") then Some (lit "1") else None.
Definition ex_user : user bool unit :=
  {| u_decode := fun b => match b with [] => NotDecoded | _ => Decoded (str_eqb b (lit "p")) end;
     u_show_args := fun _ => true; u_target := fun b => if b then None else Some tt; u_show_ret := fun _ => true |}.

(** C119: with TEST_FUZZ on, a test that is meant to panic (as [test] of the sample
    [calm_and_panicky] is) can abort the process although every harness passes alone: it suffices
    that a harness is just running.  So running a whole test executable with TEST_FUZZ on, as the
    unit test of cargo-test-fuzz/src/lib.rs:1541-1572 does, can fail. *)
Theorem C119_other_test_aborts_refuted :
  exists sched,
    writable sched /\
    snd (entry ex_user ex_on false []) = HPass /\
    p_dead (run true [harness ex_user ex_on false []; [Panics]] sched) = true.
Proof.
  exists [(0, true); (0, true); (0, true); (1, true)]. split; [|split; reflexivity].
  intros t w I. cbn in I. decompose [or] I; try contradiction; congruence.
Qed.
Print Assumptions C119_other_test_aborts_refuted.

(** C119: conversely, if two harnesses run at once, a panic of one target need not abort the
    process: the other harness may have removed the hook. *)
Theorem C119_two_harnesses_refuted :
  exists sched,
    writable sched /\
    snd (entry ex_user ex_on false (lit "p")) = HAbort /\
    let p := run true [harness ex_user ex_on false (lit "p"); harness ex_user ex_on false []] sched in
    p_dead p = false /\ p_tests p = [Failed; Passed].
Proof.
  exists ([(0, true); (0, true); (0, true)] ++ repeat (1, true) 5 ++ [(0, true)]). split; [|repeat split].
  intros t w I. cbn in I. decompose [or] I; try contradiction; congruence.
Qed.
Print Assumptions C119_two_harnesses_refuted.

(** C119: nor does it if the target itself installs a panic hook before it panics: then the harness, alone in
    its process, fails without aborting, which a fuzzer does not take for a crash. *)
Theorem C119_own_hook_refuted :
  exists body sched,
    writable sched /\ In Panics body /\
    let p := run true [Warn :: SetAbort :: body ++ [Take]] sched in
    p_dead p = false /\ p_tests p = [Failed].
Proof.
  exists [SetOwn; Panics], (repeat (0, true) 5). split; [|split; [right; now left|split; reflexivity]].
  intros t w I. cbn in I. decompose [or] I; try contradiction; congruence.
Qed.
Print Assumptions C119_own_hook_refuted.

Example C119_example :
  (* three harnesses and an ordinary test that panics, without TEST_FUZZ *)
  let progs := [harness ex_user (fun _ => None) false (lit "p"); harness ex_user (fun _ => None) false []; [Panics]] in
  let p := run false progs [(1, true); (0, true); (2, true); (1, true); (0, true); (0, true); (1, true)] in
  progs = [[Warn]; [Warn]; [Panics]] /\ p_tests p = [Passed; Passed; Failed] /\ p_said p = 1 /\ p_dead p = false /\
  (* the same harnesses without a stderr *)
  p_tests (run false (firstn 2 progs) [(1, false); (0, false); (1, false); (0, false)]) = [Failed; Failed] /\
  (* a fuzzing harness *)
  harness ex_user ex_on false (lit "p") = [Warn; SetAbort; Panics; Take] /\
  p_hook (run true [harness ex_user ex_on false (lit "x")] (repeat (0, true) 3)) = HkAbort.
Proof. vm_compute. repeat split; reflexivity. Qed.
