(** C65 and C66: the serde combinators. *)
From Coq Require Import List Ascii String Bool Arith NArith Lia.
From Verif Require Import Base Serde Postcard PropsSerde Combinators.
Import ListNotations.
Local Open Scope nat_scope.

(** ** Specification *)

(** Below a value of type [w] lie the locks [ids] (mutexes are marked [true]) and, innermost, [x]. *)
Inductive leads {X} (s : store X) : comb -> value X -> list (bool * nat) -> X -> Prop :=
  | le_leaf x : leads s CType (VLeaf x) [] x
  | le_ref w v ids x : leads s w v ids x -> leads s (CRef w) (VRef v) ids x
  | le_ref_mut w v ids x : leads s w v ids x -> leads s (CRefMut w) (VRefMut v) ids x
  | le_mutex w id ids x : leads s w (c_content (s id)) ids x -> leads s (CMutex w) (VMutex id) ((true, id) :: ids) x
  | le_rwlock w id ids x : leads s w (c_content (s id)) ids x -> leads s (CRwLock w) (VRwLock id) ((false, id) :: ids) x.

(** This thread has access to what the lock contains. *)
Definition held {X} (c : cell X) : Prop := c_excl c = Some true \/ 0 < c_mine c.

(** When a lock is granted, and how a refusal is reported. *)
Definition granted {X} (mutex : bool) (c : cell X) : Prop :=
  c_excl c = None /\ (mutex = false -> c_queued c = false) /\ c_poison c = false.
Inductive refused {X} (mutex : bool) (c : cell X) : str -> Prop :=
  | ref_locked : c_excl c <> None -> refused mutex c (lit "try_lock failed because the operation would block")
  | ref_queued : c_excl c = None -> mutex = false -> c_queued c = true -> refused mutex c (lit "try_lock failed because the operation would block")
  | ref_poisoned : c_excl c = None -> (mutex = false -> c_queued c = false) -> c_poison c = true -> refused mutex c (lit "poisoned lock: another task failed inside").

(** A possible course of serialisation: locks are taken from the outside in; the first
    refusal ends it with an error; if there is none, the result is that of the innermost
    value; the locks taken are released in reverse order. *)
Inductive course {X R} (inner : X -> outcome R) : list (event X) -> outcome R -> Prop :=
  | cr_inner s x : course inner [EInner s x] (inner x)
  | cr_refused m id c e : refused m c e -> course inner [ETry m id c false] (Err e)
  | cr_taken m id c tr r : granted m c -> course inner tr r -> course inner (ETry m id c true :: tr ++ [ERelease m id]) r.

(** What other threads can do to locks held by this one: they do not take or release its
    guards and do not change what it has access to. *)
Definition respects {X} (f : interference X) : Prop := forall s id,
  (c_excl (f s id) = Some true <-> c_excl (s id) = Some true) /\ c_mine (f s id) = c_mine (s id) /\
  (held (s id) -> c_content (f s id) = c_content (s id)).

(** Types: [ty id] says what the lock at [id] contains, and whether it is a mutex. *)
Inductive fits {X} (ty : nat -> option (bool * comb)) : comb -> value X -> Prop :=
  | fi_leaf x : fits ty CType (VLeaf x)
  | fi_ref w v : fits ty w v -> fits ty (CRef w) (VRef v)
  | fi_ref_mut w v : fits ty w v -> fits ty (CRefMut w) (VRefMut v)
  | fi_mutex w id : ty id = Some (true, w) -> fits ty (CMutex w) (VMutex id)
  | fi_rwlock w id : ty id = Some (false, w) -> fits ty (CRwLock w) (VRwLock id).
Definition well_typed {X} (ty : nat -> option (bool * comb)) (s : store X) : Prop := forall id m w, ty id = Some (m, w) -> fits ty w (c_content (s id)).
Definition keeps_types {X} ty (f : interference X) : Prop := forall s, well_typed ty s -> well_typed ty (f s).

(** The number of locks in a type. *)
Fixpoint lock_depth (w : comb) : nat :=
  match w with CType => 0 | CRef w | CRefMut w => lock_depth w | CMutex w | CRwLock w => S (lock_depth w) end.

(** This thread holds the same guards. *)
Definition same_guards {X} (s s' : store X) : Prop := forall id, (c_excl (s' id) = Some true <-> c_excl (s id) = Some true) /\ c_mine (s' id) = c_mine (s id).

(** The lock as it was, but poisoned. *)
Definition poison {X} (c : cell X) : cell X :=
  {| c_excl := c_excl c; c_mine := c_mine c; c_others := c_others c; c_queued := c_queued c; c_poison := true; c_content := c_content c |}.

(** ** Proofs *)

Lemma try_lock_granted X (c : cell X) : try_lock c = None <-> granted true c.
Proof.
  unfold try_lock, granted. destruct (c_excl c); [split; [discriminate|intros [? _]; discriminate]|].
  destruct (c_poison c); split; try discriminate; try (intros (_ & _ & ?); discriminate); auto. split; [reflexivity|]. split; [discriminate|reflexivity].
Qed.
Lemma try_lock_refused X (c : cell X) e : try_lock c = Some e -> refused true c e.
Proof.
  unfold try_lock. destruct (c_excl c) as [b|] eqn:E; [intros [= <-]; constructor 1; congruence|]. destruct (c_poison c) eqn:P; [|discriminate]. intros [= <-]. constructor 3; auto. discriminate.
Qed.
Lemma try_read_granted X (c : cell X) : try_read c = None <-> granted false c.
Proof.
  unfold try_read, granted. destruct (c_excl c); [split; [discriminate|intros [? _]; discriminate]|].
  destruct (c_queued c); [split; [discriminate|intros (_ & ? & _); discriminate (H eq_refl)]|].
  destruct (c_poison c); split; try discriminate; try (intros (_ & _ & ?); discriminate); auto.
Qed.
Lemma try_read_refused X (c : cell X) e : try_read c = Some e -> refused false c e.
Proof.
  unfold try_read. destruct (c_excl c) as [b|] eqn:E; [intros [= <-]; constructor 1; congruence|]. destruct (c_queued c) eqn:Q; [intros [= <-]; now constructor 2|].
  destruct (c_poison c) eqn:P; [|discriminate]. intros [= <-]. constructor 3; auto.
Qed.

Lemma set_same X (s : store X) id c : set s id c id = c.
Proof. unfold set. now rewrite Nat.eqb_refl. Qed.
Lemma set_other X (s : store X) id c i : i <> id -> set s id c i = s i.
Proof. unfold set. intros N. apply Nat.eqb_neq in N. now rewrite N. Qed.

Lemma interfere_respects X env (s : store X) : Forall respects env -> forall id,
  (c_excl (interfere env s id) = Some true <-> c_excl (s id) = Some true) /\ c_mine (interfere env s id) = c_mine (s id) /\
  (held (s id) -> c_content (interfere env s id) = c_content (s id)).
Proof. intros F id. destruct F; [cbn; tauto|apply H]. Qed.
Lemma tl_forall A (P : A -> Prop) l : Forall P l -> Forall P (tl l).
Proof. destruct 1; cbn; auto. Qed.

Section Ser.
  Context {X R : Type} (inner : X -> outcome R).

  (** Guards are returned, and what is held is not changed meanwhile. *)
  Lemma ser_frame w : forall v s env r s' tr env', Forall respects env -> ser inner w v s env = (r, s', tr, env') ->
    Forall respects env' /\ same_guards s s' /\ (forall id, held (s id) -> c_content (s' id) = c_content (s id)) /\
    forall sx x, In (EInner sx x) tr -> forall id, held (s id) -> held (sx id) /\ c_content (sx id) = c_content (s id).
  Proof.
    assert (TRIV : forall (s : store X) (env : list (interference X)), Forall respects env -> Forall respects env /\ same_guards s s /\ (forall id, held (s id) -> c_content (s id) = c_content (s id)) /\
       forall sx (x : X), In (EInner sx x) [] -> forall id, held (s id) -> held (sx id) /\ c_content (sx id) = c_content (s id)).
    { intros s env F. split; [exact F|]. split; [intros id; tauto|]. split; [auto|intros sx x []]. }
    induction w as [|w IH|w IH|w IH|w IH]; intros v s env r s' tr env' F E; cbn [ser] in E; destruct v as [x|v|v|i|i]; try (injection E as <- <- <- <-; now apply TRIV); try (now eapply IH; eauto).
    - injection E as <- <- <- <-. split; [exact F|]. split; [intros id; tauto|]. split; [auto|]. intros sx y [I|[]] id H. injection I as <- _. auto.
    - pose proof (interfere_respects _ _ s F) as B. apply tl_forall in F. set (s1 := interfere env s) in *. destruct (try_lock (s1 i)) as [e|] eqn:T.
      + injection E as <- <- <- <-. split; [exact F|]. split; [intros id; destruct (B id) as (? & ? & _); auto|]. split; [intros id H; now apply B|]. intros sx x [I|[]]. discriminate.
      + destruct (ser inner w (c_content (s1 i)) (set s1 i (lock (s1 i))) (tl env)) as [[[r2 s2] tr2] env2] eqn:E2. injection E as <- <- <- <-.
        destruct (IH _ _ _ _ _ _ _ F E2) as (F2 & G2 & K2 & L2). pose proof (interfere_respects _ _ s2 F2) as B2. apply tl_forall in F2. set (s3 := interfere env2 s2) in *.
        assert (H2 : forall id, held (s id) -> held (set s1 i (lock (s1 i)) id) /\ c_content (set s1 i (lock (s1 i)) id) = c_content (s id)).
        { intros id H. destruct (B id) as (B1 & B3 & B4). destruct (Nat.eq_dec id i) as [->|N].
          - rewrite set_same. split; [left; reflexivity|]. cbn. auto.
          - rewrite set_other by exact N. split; [|auto]. unfold held in *. rewrite B3. tauto. }
        split; [exact F2|]. split; [|split].
        * intros id. destruct (B id) as (B1 & B3 & _). destruct (G2 id) as (G21 & G22). destruct (B2 id) as (B21 & B23 & _). destruct (Nat.eq_dec id i) as [->|N].
          -- rewrite set_same. rewrite set_same in G21, G22. cbn in *. split; [|congruence]. split; [discriminate|]. intros H. apply B1 in H.
             unfold try_lock in T. rewrite H in T. discriminate.
          -- rewrite set_other by exact N. rewrite set_other in G21, G22 by exact N. split; [tauto|congruence].
        * intros id H. destruct (H2 id H) as [H3 C3]. pose proof (K2 id H3) as C4. destruct (G2 id) as (G21 & G22). destruct (B2 id) as (_ & _ & B24).
          assert (H4 : held (s2 id)) by (unfold held in *; rewrite G22; tauto). specialize (B24 H4).
          destruct (Nat.eq_dec id i) as [->|N]; [rewrite set_same; cbn; congruence|rewrite set_other by exact N; congruence].
        * intros sx x I id H. destruct I as [I|I]; [discriminate|]. apply in_app_or in I as [I|[I|[]]]; [|discriminate].
          destruct (H2 id H) as [H3 C3]. destruct (L2 _ _ I id H3) as [L21 L22]. split; [exact L21|congruence].
    - pose proof (interfere_respects _ _ s F) as B. apply tl_forall in F. set (s1 := interfere env s) in *. destruct (try_read (s1 i)) as [e|] eqn:T.
      + injection E as <- <- <- <-. split; [exact F|]. split; [intros id; destruct (B id) as (? & ? & _); auto|]. split; [intros id H; now apply B|]. intros sx x [I|[]]. discriminate.
      + destruct (ser inner w (c_content (s1 i)) (set s1 i (read_lock (s1 i))) (tl env)) as [[[r2 s2] tr2] env2] eqn:E2. injection E as <- <- <- <-.
        destruct (IH _ _ _ _ _ _ _ F E2) as (F2 & G2 & K2 & L2). pose proof (interfere_respects _ _ s2 F2) as B2. apply tl_forall in F2. set (s3 := interfere env2 s2) in *.
        assert (H2 : forall id, held (s id) -> held (set s1 i (read_lock (s1 i)) id) /\ c_content (set s1 i (read_lock (s1 i)) id) = c_content (s id)).
        { intros id H. destruct (B id) as (B1 & B3 & B4). destruct (Nat.eq_dec id i) as [->|N].
          - rewrite set_same. split; [right; cbn; lia|]. cbn. auto.
          - rewrite set_other by exact N. split; [|auto]. unfold held in *. rewrite B3. tauto. }
        split; [exact F2|]. split; [|split].
        * intros id. destruct (B id) as (B1 & B3 & _). destruct (G2 id) as (G21 & G22). destruct (B2 id) as (B21 & B23 & _). destruct (Nat.eq_dec id i) as [->|N].
          -- rewrite set_same. rewrite set_same in G21, G22. cbn in *. split; [tauto|]. rewrite B23, G22. cbn. exact B3.
          -- rewrite set_other by exact N. rewrite set_other in G21, G22 by exact N. split; [tauto|congruence].
        * intros id H. destruct (H2 id H) as [H3 C3]. pose proof (K2 id H3) as C4. destruct (G2 id) as (G21 & G22). destruct (B2 id) as (_ & _ & B24).
          assert (H4 : held (s2 id)) by (unfold held in *; rewrite G22; tauto). specialize (B24 H4).
          destruct (Nat.eq_dec id i) as [->|N]; [rewrite set_same; cbn; congruence|rewrite set_other by exact N; congruence].
        * intros sx x I id H. destruct I as [I|I]; [discriminate|]. apply in_app_or in I as [I|[I|[]]]; [|discriminate].
          destruct (H2 id H) as [H3 C3]. destruct (L2 _ _ I id H3) as [L21 L22]. split; [exact L21|congruence].
  Qed.

  Lemma set_well ty (s : store X) i c : well_typed ty s -> c_content c = c_content (s i) -> well_typed ty (set s i c).
  Proof.
    intros W E id m w T. destruct (Nat.eq_dec id i) as [->|N]; [rewrite set_same, E|rewrite set_other by exact N]; now apply (W _ m).
  Qed.
  Lemma interfere_well ty env (s : store X) : Forall (keeps_types ty) env -> well_typed ty s -> well_typed ty (interfere env s).
  Proof. intros F W. destruct F; [exact W|now apply H]. Qed.

  Lemma ser_course ty w : forall v s env r s' tr env', fits ty w v -> well_typed ty s -> Forall (keeps_types ty) env -> ser inner w v s env = (r, s', tr, env') ->
    course inner tr r /\ well_typed ty s' /\ Forall (keeps_types ty) env' /\ List.length tr <= 2 * lock_depth w + 1.
  Proof.
    induction w as [|w IH|w IH|w IH|w IH]; intros v s env r s' tr env' T W F E; inversion T as [x|w0 v0 T0|w0 v0 T0|w0 i T0|w0 i T0]; subst; cbn [ser] in E; cbn [lock_depth].
    - injection E as <- <- <- <-. split; [constructor|]. cbn. auto.
    - eapply IH; eauto.
    - eapply IH; eauto.
    - pose proof (interfere_well _ _ _ F W) as W1. apply tl_forall in F. set (s1 := interfere env s) in *. destruct (try_lock (s1 i)) as [e|] eqn:L.
      + injection E as <- <- <- <-. split; [constructor; now apply try_lock_refused|]. cbn. repeat split; auto. lia.
      + destruct (ser inner w (c_content (s1 i)) (set s1 i (lock (s1 i))) (tl env)) as [[[r2 s2] tr2] env2] eqn:E2. injection E as <- <- <- <-.
        destruct (IH _ _ _ _ _ _ _ (W1 _ _ _ T0) (set_well _ _ i (lock (s1 i)) W1 eq_refl) F E2) as (C & W2 & F2 & B).
        split; [constructor; [now apply try_lock_granted|exact C]|]. split; [apply set_well; [now apply interfere_well|reflexivity]|]. split; [now apply tl_forall|].
        cbn [List.length]. rewrite app_length. cbn [List.length]. lia.
    - pose proof (interfere_well _ _ _ F W) as W1. apply tl_forall in F. set (s1 := interfere env s) in *. destruct (try_read (s1 i)) as [e|] eqn:L.
      + injection E as <- <- <- <-. split; [constructor; now apply try_read_refused|]. cbn. repeat split; auto. lia.
      + destruct (ser inner w (c_content (s1 i)) (set s1 i (read_lock (s1 i))) (tl env)) as [[[r2 s2] tr2] env2] eqn:E2. injection E as <- <- <- <-.
        destruct (IH _ _ _ _ _ _ _ (W1 _ _ _ T0) (set_well _ _ i (read_lock (s1 i)) W1 eq_refl) F E2) as (C & W2 & F2 & B).
        split; [constructor; [now apply try_read_granted|exact C]|]. split; [apply set_well; [now apply interfere_well|reflexivity]|]. split; [now apply tl_forall|].
        cbn [List.length]. rewrite app_length. cbn [List.length]. lia.
  Qed.

  (** What is serialised is what lies innermost at that time, with all locks above held. *)
  Lemma ser_inner w : forall v s env r s' tr env', Forall respects env -> ser inner w v s env = (r, s', tr, env') ->
    forall sx x, In (EInner sx x) tr -> exists ids, leads sx w v ids x /\ Forall (fun p => held (sx (snd p))) ids.
  Proof.
    induction w as [|w IH|w IH|w IH|w IH]; intros v s env r s' tr env' F E sx x I; cbn [ser] in E; destruct v as [y|v|v|i|i]; try (injection E as <- <- <- <-; now destruct I).
    - injection E as <- <- <- <-. destruct I as [I|[]]. injection I as <- <-. exists []. split; constructor.
    - destruct (IH _ _ _ _ _ _ _ F E _ _ I) as (ids & L & H). exists ids. split; [now constructor|exact H].
    - destruct (IH _ _ _ _ _ _ _ F E _ _ I) as (ids & L & H). exists ids. split; [now constructor|exact H].
    - apply tl_forall in F. set (s1 := interfere env s) in *. destruct (try_lock (s1 i)) as [e|] eqn:T; [injection E as <- <- <- <-; destruct I as [I|[]]; discriminate|].
      destruct (ser inner w (c_content (s1 i)) (set s1 i (lock (s1 i))) (tl env)) as [[[r2 s2] tr2] env2] eqn:E2. injection E as <- <- <- <-.
      destruct I as [I|I]; [discriminate|]. apply in_app_or in I as [I|[I|[]]]; [|discriminate].
      destruct (IH _ _ _ _ _ _ _ F E2 _ _ I) as (ids & L & H). destruct (ser_frame _ _ _ _ _ _ _ _ F E2) as (_ & _ & _ & K).
      destruct (K _ _ I i) as [K1 K2]; [rewrite set_same; left; reflexivity|]. rewrite set_same in K2. cbn in K2.
      exists ((true, i) :: ids). split; [constructor; now rewrite K2|]. constructor; auto.
    - apply tl_forall in F. set (s1 := interfere env s) in *. destruct (try_read (s1 i)) as [e|] eqn:T; [injection E as <- <- <- <-; destruct I as [I|[]]; discriminate|].
      destruct (ser inner w (c_content (s1 i)) (set s1 i (read_lock (s1 i))) (tl env)) as [[[r2 s2] tr2] env2] eqn:E2. injection E as <- <- <- <-.
      destruct I as [I|I]; [discriminate|]. apply in_app_or in I as [I|[I|[]]]; [|discriminate].
      destruct (IH _ _ _ _ _ _ _ F E2 _ _ I) as (ids & L & H). destruct (ser_frame _ _ _ _ _ _ _ _ F E2) as (_ & _ & _ & K).
      destruct (K _ _ I i) as [K1 K2]; [rewrite set_same; right; cbn; lia|]. rewrite set_same in K2. cbn in K2.
      exists ((false, i) :: ids). split; [constructor; now rewrite K2|]. constructor; auto.
  Qed.

  Lemma leads_content w : forall (s s' : store X) v ids x, (forall id, c_content (s' id) = c_content (s id)) -> leads s w v ids x -> leads s' w v ids x.
  Proof. intros s s' v ids x E L. induction L; constructor; auto; now rewrite E. Qed.

  Fixpoint comb_size (w : comb) : nat := match w with CType => 0 | CRef w | CRefMut w | CMutex w | CRwLock w => S (comb_size w) end.

  (** Every lock on the way has a smaller content than the lock above it. *)
  Lemma fits_leads ty (s : store X) w : well_typed ty s -> forall v, fits ty w v -> exists ids x, leads s w v ids x /\
    Forall (fun p => exists w', ty (snd p) = Some (fst p, w') /\ comb_size w' < comb_size w) ids.
  Proof.
    intros W. induction w as [|w IH|w IH|w IH|w IH]; intros v T; inversion T as [x|w0 v0 T0|w0 v0 T0|w0 i T0|w0 i T0]; subst.
    - exists [], x. split; constructor.
    - destruct (IH _ T0) as (ids & x & L & S). exists ids, x. split; [now constructor|]. revert S. apply Forall_impl. intros p (w' & A & B). exists w'. cbn. auto with arith.
    - destruct (IH _ T0) as (ids & x & L & S). exists ids, x. split; [now constructor|]. revert S. apply Forall_impl. intros p (w' & A & B). exists w'. cbn. auto with arith.
    - destruct (IH _ (W _ _ _ T0)) as (ids & x & L & S). exists ((true, i) :: ids), x. split; [now constructor|]. constructor; [exists w; cbn; auto|].
      revert S. apply Forall_impl. intros p (w' & A & B). exists w'. cbn. auto with arith.
    - destruct (IH _ (W _ _ _ T0)) as (ids & x & L & S). exists ((false, i) :: ids), x. split; [now constructor|]. constructor; [exists w; cbn; auto|].
      revert S. apply Forall_impl. intros p (w' & A & B). exists w'. cbn. auto with arith.
  Qed.
  Lemma leads_unique (s : store X) w v ids x : leads s w v ids x -> forall ids' x', leads s w v ids' x' -> ids' = ids /\ x' = x.
  Proof. induction 1; inversion 1; subst; auto; match goal with H : leads _ _ _ _ _ |- _ => now apply IHleads in H as [-> ->] end. Qed.

  (** Nothing else is running: the result is determined by the locks on the way. *)
  Lemma ser_alone ty w : forall v s ids x, fits ty w v -> well_typed ty s -> leads s w v ids x ->
    exists r s' tr, ser inner w v s [] = (r, s', tr, []) /\
      (Forall (fun p => granted (fst p) (s (snd p))) ids -> r = inner x) /\
      (forall a m id b e, ids = a ++ (m, id) :: b -> Forall (fun p => granted (fst p) (s (snd p))) a -> refused m (s id) e -> r = Err e) /\
      (is_panic r = false -> forall id, s' id = s id) /\
      (is_panic r = true -> forall id, (In (true, id) ids -> s' id = poison (s id)) /\ (~ In (true, id) ids -> s' id = s id)).
  Proof.
    induction w as [|w IH|w IH|w IH|w IH]; intros v s ids x T W L; inversion T as [y|w0 v0 T0|w0 v0 T0|w0 i T0|w0 i T0]; subst; inversion L as [z|w1 v1 ids1 z L1|w1 v1 ids1 z L1|w1 i1 ids1 z L1|w1 i1 ids1 z L1]; subst; cbn [ser].
    - do 3 eexists. split; [reflexivity|]. split; [reflexivity|]. split; [intros [|] ? ? ? ? E; discriminate|]. split; [auto|]. intros _ id. split; [intros []|auto].
    - now apply IH.
    - now apply IH.
    - cbn [interfere]. destruct (try_lock (s i)) as [e|] eqn:E.
      + do 3 eexists. split; [reflexivity|]. split; [|split].
        * intros G. inversion G as [|? ? G1 _]; subst. cbn in G1. apply try_lock_granted in G1. congruence.
        * intros [|p a] m id b e' A G Rf; cbn in A; injection A as A1 A2.
          -- subst m id. f_equal. apply try_lock_refused in E. inversion E; inversion Rf; subst; auto; congruence.
          -- subst p. inversion G as [|? ? G1 _]; subst. cbn in G1. apply try_lock_granted in G1. congruence.
        * split; [auto|discriminate].
      + assert (W2 : well_typed ty (set s i (lock (s i)))) by (apply set_well; auto).
        assert (CT : forall id, c_content (set s i (lock (s i)) id) = c_content (s id)) by (intros id; unfold set; destruct (Nat.eqb_spec id i) as [->|]; reflexivity).
        assert (L2 : leads (set s i (lock (s i))) w (c_content (s i)) ids1 x) by (now apply (leads_content w s)).
        destruct (IH _ _ _ _ (W _ _ _ T0) W2 L2) as (r & s' & tr & E2 & R1 & R2 & R3 & R4). cbn [tl]. rewrite E2. cbn [interfere tl].
        assert (N : Forall (fun p => snd p <> i) ids1).
        { destruct (fits_leads ty s w W (c_content (s i)) (W _ _ _ T0)) as (ids' & x' & L' & S'). destruct (leads_unique _ _ _ _ _ L1 _ _ L') as [<- <-].
          revert S'. apply Forall_impl. intros p (w' & A & B) <-. rewrite T0 in A. injection A as _ ->. lia. }
        assert (GR : forall l, Forall (fun p : bool * nat => snd p <> i) l -> Forall (fun p => granted (fst p) (s (snd p))) l -> Forall (fun p => granted (fst p) (set s i (lock (s i)) (snd p))) l).
        { intros l N' G. rewrite Forall_forall in *. intros p I. specialize (N' p I). specialize (G p I). now rewrite set_other. }
        pose proof E as GI. apply try_lock_granted in GI. destruct GI as (GI1 & _ & GI2).
        do 3 eexists. split; [reflexivity|]. split; [|split; [|split]].
        * intros G. inversion G as [|? ? G1 G2]; subst. apply R1, GR; auto.
        * intros [|p a] m id b e' A G Rf; cbn in A; injection A as A1 A2.
          -- subst m id. exfalso. inversion Rf as [P1|P1 P2 P3|P1 P2 P3]; congruence.
          -- subst p ids1. inversion G as [|? ? G1 G2]; subst. apply Forall_app in N as [Na Nb]. inversion Nb as [|? ? N1 _]; subst. cbn in N1. eapply R2; [reflexivity|now apply GR|]. now rewrite set_other.
        * intros P id. specialize (R3 P). destruct (Nat.eq_dec id i) as [->|D]; [|rewrite set_other by exact D; rewrite R3; now apply set_other].
          rewrite set_same, R3, set_same, P. unfold unlock, lock. cbn. rewrite orb_false_r, <- GI1. destruct (s i); reflexivity.
        * intros P id. specialize (R4 P id). destruct (Nat.eq_dec id i) as [->|D]; [|rewrite set_other in * by exact D; cbn [In]; split; intros I; apply R4; [destruct I as [I|I]; [congruence|exact I]|tauto]].
          rewrite set_same in *. rewrite P. split; [intros _|intros X0; destruct X0; now left]. destruct R4 as [R4 R5].
          destruct (in_dec (fun a b : bool * nat => ltac:(decide equality; [apply Nat.eq_dec|apply bool_dec])) (true, i) ids1) as [I|I]; [rewrite (R4 I)|rewrite (R5 I)];
            unfold unlock, lock, poison; cbn; now rewrite ?orb_true_r, GI1.
    - cbn [interfere]. destruct (try_read (s i)) as [e|] eqn:E.
      + do 3 eexists. split; [reflexivity|]. split; [|split].
        * intros G. inversion G as [|? ? G1 _]; subst. cbn in G1. apply try_read_granted in G1. congruence.
        * intros [|p a] m id b e' A G Rf; cbn in A; injection A as A1 A2.
          -- subst m id. f_equal. apply try_read_refused in E. inversion E; inversion Rf; subst; auto; try congruence;
               repeat match goal with H : false = false -> _ |- _ => specialize (H eq_refl) end; congruence.
          -- subst p. inversion G as [|? ? G1 _]; subst. cbn in G1. apply try_read_granted in G1. congruence.
        * split; [auto|discriminate].
      + assert (W2 : well_typed ty (set s i (read_lock (s i)))) by (apply set_well; auto).
        assert (CT : forall id, c_content (set s i (read_lock (s i)) id) = c_content (s id)) by (intros id; unfold set; destruct (Nat.eqb_spec id i) as [->|]; reflexivity).
        assert (L2 : leads (set s i (read_lock (s i))) w (c_content (s i)) ids1 x) by (now apply (leads_content w s)).
        destruct (IH _ _ _ _ (W _ _ _ T0) W2 L2) as (r & s' & tr & E2 & R1 & R2 & R3 & R4). cbn [tl]. rewrite E2. cbn [interfere tl].
        assert (N : Forall (fun p => snd p <> i) ids1).
        { destruct (fits_leads ty s w W (c_content (s i)) (W _ _ _ T0)) as (ids' & x' & L' & S'). destruct (leads_unique _ _ _ _ _ L1 _ _ L') as [<- <-].
          revert S'. apply Forall_impl. intros p (w' & A & B) <-. rewrite T0 in A. injection A as _ ->. lia. }
        assert (GR : forall l, Forall (fun p : bool * nat => snd p <> i) l -> Forall (fun p => granted (fst p) (s (snd p))) l -> Forall (fun p => granted (fst p) (set s i (read_lock (s i)) (snd p))) l).
        { intros l N' G. rewrite Forall_forall in *. intros p I. specialize (N' p I). specialize (G p I). now rewrite set_other. }
        pose proof E as GI. apply try_read_granted in GI. destruct GI as (GI1 & GI3 & GI2). specialize (GI3 eq_refl).
        do 3 eexists. split; [reflexivity|]. split; [|split; [|split]].
        * intros G. inversion G as [|? ? G1 G2]; subst. apply R1, GR; auto.
        * intros [|p a] m id b e' A G Rf; cbn in A; injection A as A1 A2.
          -- subst m id. exfalso. inversion Rf as [P1|P1 P2 P3|P1 P2 P3]; congruence.
          -- subst p ids1. inversion G as [|? ? G1 G2]; subst. apply Forall_app in N as [Na Nb]. inversion Nb as [|? ? N1 _]; subst. cbn in N1. eapply R2; [reflexivity|now apply GR|]. now rewrite set_other.
        * intros P id. specialize (R3 P). destruct (Nat.eq_dec id i) as [->|D]; [|rewrite set_other by exact D; rewrite R3; now apply set_other].
          rewrite set_same, R3, set_same. unfold read_unlock, read_lock. cbn. destruct (s i); reflexivity.
        * intros P id. specialize (R4 P id). cbn [In]. assert (D2 : forall id, (false, i) = (true, id) \/ In (true, id) ids1 <-> In (true, id) ids1) by (intros; split; [intros [?|?]; [discriminate|assumption]|auto]).
          destruct R4 as [R4 R5]. rewrite D2. destruct (Nat.eq_dec id i) as [->|D]; [|rewrite set_other in * by exact D; auto].
          rewrite set_same in *. split; intros I; [rewrite (R4 I)|rewrite (R5 I)]; unfold read_unlock, read_lock, poison; cbn; [reflexivity|destruct (s i); reflexivity].
  Qed.
End Ser.

Lemma des_spec X : forall w (x : X) s next, exists v s' next' ids,
  des w (Ret x) s next = Ret (v, s', next') /\ leads s' w v ids x /\ next <= next' /\ (forall id, id < next -> s' id = s id) /\ NoDup (map snd ids) /\
  Forall (fun p => next <= snd p < next' /\ granted (fst p) (s' (snd p)) /\ c_mine (s' (snd p)) = 0 /\ c_others (s' (snd p)) = 0) ids.
Proof.
  assert (MORE : forall s s' w v ids (x : X), Forall (fun p => c_content (s' (snd p)) = c_content (s (snd p))) ids -> leads s w v ids x -> leads s' w v ids x).
  { intros s s' w v ids x F L. induction L; constructor; auto; inversion F as [|? ? F1 F2]; subst; [cbn in F1; rewrite F1; auto|cbn in F1; rewrite F1; auto]. }
  induction w as [|w IH|w IH|w IH|w IH]; intros x s next; cbn [des].
  - do 4 eexists. split; [reflexivity|]. repeat split; auto; constructor.
  - destruct (IH x s next) as (v & s' & next' & ids & -> & L & R). do 4 eexists. split; [reflexivity|]. split; [constructor; eauto|exact R].
  - destruct (IH x s next) as (v & s' & next' & ids & -> & L & R). do 4 eexists. split; [reflexivity|]. split; [constructor; eauto|exact R].
  - destruct (IH x s next) as (v & s' & next' & ids & -> & L & B & O & N & F). do 3 eexists. exists ((true, next') :: ids). split; [reflexivity|].
    assert (G : Forall (fun p : bool * nat => snd p <> next') ids) by (revert F; apply Forall_impl; intros p ((? & ?) & _); lia).
    split; [constructor; rewrite set_same; cbn; apply (MORE s'); [|exact L]; revert G; apply Forall_impl; intros p G; now rewrite set_other|].
    split; [lia|]. split; [intros id I; rewrite set_other by lia; now apply O|]. split.
    + cbn. constructor; [|exact N]. intros I. apply in_map_iff in I as (p & E & I). rewrite Forall_forall in G. now apply (G p).
    + constructor; [cbn; rewrite set_same; cbn; repeat split; auto; lia|]. rewrite Forall_forall in *. intros p I. specialize (F p I). specialize (G p I). rewrite set_other by exact G. intuition lia.
  - destruct (IH x s next) as (v & s' & next' & ids & -> & L & B & O & N & F). do 3 eexists. exists ((false, next') :: ids). split; [reflexivity|].
    assert (G : Forall (fun p : bool * nat => snd p <> next') ids) by (revert F; apply Forall_impl; intros p ((? & ?) & _); lia).
    split; [constructor; rewrite set_same; cbn; apply (MORE s'); [|exact L]; revert G; apply Forall_impl; intros p G; now rewrite set_other|].
    split; [lia|]. split; [intros id I; rewrite set_other by lia; now apply O|]. split.
    + cbn. constructor; [|exact N]. intros I. apply in_map_iff in I as (p & E & I). rewrite Forall_forall in G. now apply (G p).
    + constructor; [cbn; rewrite set_same; cbn; repeat split; auto; lia|]. rewrite Forall_forall in *. intros p I. specialize (F p I). specialize (G p I). rewrite set_other by exact G. intuition lia.
Qed.

(** ** C65 *)

(** Whatever other threads do meanwhile: if the innermost value is serialised at all, the
    result is exactly that of serialising it; and it is the value that lies innermost at that
    moment, with every lock above it held. *)
Theorem C65_transparent :
  forall (X R : Type) (inner : X -> outcome R) ty w v s env r s' tr env',
    fits ty w v -> well_typed ty s -> Forall (keeps_types ty) env -> Forall respects env ->
    ser inner w v s env = (r, s', tr, env') ->
    forall sx x, In (EInner sx x) tr -> r = inner x /\ exists ids, leads sx w v ids x /\ Forall (fun p => held (sx (snd p))) ids.
Proof.
  intros X R inner ty w v s env r s' tr env' T W K F E sx x I. split; [|eapply ser_inner; eauto].
  destruct (ser_course inner ty w _ _ _ _ _ _ _ T W K E) as (C & _). clear -C I. induction C as [s0 x0|m id c e _|m id c tr r G C IH].
  - destruct I as [I|[]]. now injection I as _ ->.
  - destruct I as [I|[]]. discriminate.
  - destruct I as [I|I]; [discriminate|]. apply in_app_or in I as [I|[I|[]]]; [auto|discriminate].
Qed.
Print Assumptions C65_transparent.

(** With nothing else running, the result is that of the innermost value, provided the locks
    are to be had. *)
Theorem C65_alone :
  forall (X R : Type) (inner : X -> outcome R) ty w v s,
    fits ty w v -> well_typed ty s ->
    exists ids x, leads s w v ids x /\
      (Forall (fun p => granted (fst p) (s (snd p))) ids -> fst (fst (fst (ser inner w v s []))) = inner x) /\
      (forall a m id b e, ids = a ++ (m, id) :: b -> Forall (fun p => granted (fst p) (s (snd p))) a -> refused m (s id) e ->
         fst (fst (fst (ser inner w v s []))) = Err e).
Proof.
  intros X R inner ty w v s T W. destruct (fits_leads ty s w W v T) as (ids & x & L & _). exists ids, x. split; [exact L|].
  destruct (ser_alone inner ty w v s ids x T W L) as (r & s' & tr & E & A & B & _). rewrite E. auto.
Qed.
Print Assumptions C65_alone.

(** Deserialising propagates errors, and otherwise puts the innermost value into a fresh
    stack of unlocked locks. *)
Theorem C65_deserialise :
  forall (X : Type) w (r : outcome X) s next,
    match r with
    | Ret x => exists v s' next' ids, des w r s next = Ret (v, s', next') /\ leads s' w v ids x /\
        (forall id, id < next -> s' id = s id) /\ NoDup (map snd ids) /\
        Forall (fun p => next <= snd p /\ granted (fst p) (s' (snd p)) /\ c_mine (s' (snd p)) = 0 /\ c_others (s' (snd p)) = 0) ids
    | Err e => des w r s next = Err e
    | Panic => des w r s next = Panic
    end.
Proof.
  intros X w r s next. destruct r as [x|e|].
  - destruct (des_spec X w x s next) as (v & s' & next' & ids & E & L & _ & O & N & F). exists v, s', next', ids. repeat split; auto.
    revert F. apply Forall_impl. intros p ((A & _) & B). auto.
  - induction w as [|w IH|w IH|w IH|w IH]; cbn [des]; rewrite ?IH; reflexivity.
  - induction w as [|w IH|w IH|w IH|w IH]; cbn [des]; rewrite ?IH; reflexivity.
Qed.
Print Assumptions C65_deserialise.

(** Round trip through any format that gives back the innermost value. *)
Theorem C65_round_trip :
  forall (X R : Type) (inner : X -> outcome R) (inner_de : R -> outcome X) ty w v s env r s' tr env' bytes s0 next,
    fits ty w v -> well_typed ty s -> Forall (keeps_types ty) env -> Forall respects env ->
    ser inner w v s env = (r, s', tr, env') -> r = Ret bytes -> (forall x, inner x = Ret bytes -> inner_de bytes = Ret x) ->
    exists sx x ids v' s1 next' ids', In (EInner sx x) tr /\ leads sx w v ids x /\
      des w (inner_de bytes) s0 next = Ret (v', s1, next') /\ leads s1 w v' ids' x /\ map fst ids' = map fst ids.
Proof.
  intros X R inner inner_de ty w v s env r s' tr env' bs s0 next T W K F E -> D.
  destruct (ser_course inner ty w _ _ _ _ _ _ _ T W K E) as (C & _).
  assert (I : exists sx x, In (EInner sx x) tr).
  { clear -C. remember (Ret bs) as r eqn:Q. revert Q. induction C as [s0 x0|m id c e _|m id c tr r G C IH]; intros Q.
    - exists s0, x0. now left.
    - discriminate.
    - destruct (IH Q) as (sx & x & I). exists sx, x. right. apply in_or_app. now left. }
  destruct I as (sx & x & I). destruct (C65_transparent _ _ inner ty w _ _ _ _ _ _ _ T W K F E _ _ I) as (Q & ids & L & _).
  rewrite (D x (eq_sym Q)). destruct (des_spec X w x s0 next) as (v' & s1 & next' & ids' & E' & L' & _).
  exists sx, x, ids, v', s1, next', ids'. repeat split; auto.
  assert (G : forall (s s' : store X) w v v' ids ids' x x', leads s w v ids x -> leads s' w v' ids' x' -> map fst ids' = map fst ids).
  { clear. intros s s' w v v' ids ids' x x' L. revert v' ids' x'. induction L; intros v' ids' x' L'; inversion L'; subst; cbn [map fst]; [reflexivity| | | |];
      match goal with H : leads _ _ _ _ _ |- _ => now rewrite (IHL _ _ _ H) end. }
  eapply G; eauto.
Qed.
Print Assumptions C65_round_trip.

(** In particular for the values and the format of the corpus (C14). *)
Theorem C65_postcard :
  forall (z : bool) (env : nat -> Serde.ty) (t : Serde.ty) ty w v s itf bytes s' tr itf' s0 next x sx,
    fits ty w v -> well_typed ty s -> Forall (keeps_types ty) itf -> Forall respects itf ->
    ser (fun x : val => Ret (serialize z false x)) w v s itf = (Ret bytes, s', tr, itf') ->
    In (EInner sx x) tr -> wt env t x -> Forall short (strings x) ->
    exists f v' s1 next' ids', (forall g, f <= g -> deserialize z false env g t bytes = Value x) /\
      des w (Ret x) s0 next = Ret (v', s1, next') /\ leads s1 w v' ids' x.
Proof.
  intros z env t ty w v s itf bytes s' tr itf' s0 next x sx T W K F E I V S.
  destruct (C65_transparent _ _ _ ty w _ _ _ _ _ _ _ T W K F E _ _ I) as (Q & _). injection Q as ->.
  destruct (C14_round_trip z env t x [] V S) as (f & D). rewrite app_nil_r in D.
  destruct (des_spec _ w x s0 next) as (v' & s1 & next' & ids' & E' & L' & _). exists f, v', s1, next', ids'. auto.
Qed.
Print Assumptions C65_postcard.

(** [Mutex<&RwLock<u8>>], while another thread replaces the value before the lock is got. *)
Definition example_store : store nat := fun id =>
  {| c_excl := None; c_mine := 0; c_others := 2 * id; c_queued := false; c_poison := false; c_content := if id =? 0 then VRef (VRwLock 1) else VLeaf 5 |}.
Definition example_change : interference nat := fun s id =>
  if (id =? 1) && (c_mine (s id) =? 0) then
    {| c_excl := match c_excl (s id) with Some true => Some true | _ => None end; c_mine := c_mine (s id); c_others := 0; c_queued := false; c_poison := false;
       c_content := match c_excl (s id) with Some true => c_content (s id) | _ => VLeaf 7 end |}
  else s id.

Example C65_example :
  let ty id := match id with 0 => Some (true, CRef (CRwLock CType)) | 1 => Some (false, CType) | _ => None end in
  let w := CMutex (CRef (CRwLock CType)) in
  fits ty w (VMutex (X := nat) 0) /\ well_typed ty example_store /\ keeps_types ty example_change /\ respects example_change /\
  (fst (fst (fst (ser (fun x => Ret (x + 1)) w (VMutex 0) example_store [fun s => s; example_change]))) = Ret 8) /\
  (fst (fst (fst (ser (fun x => Ret (x + 1)) w (VMutex 0) example_store []))) = Ret 6) /\
  leads example_store w (VMutex 0) [(true, 0); (false, 1)] 5.
Proof.
  cbv zeta. split; [now constructor|]. split; [intros [|[|id]] m w [= <- <-]; repeat constructor|]. split.
  { intros s W [|[|id]] m w E; try discriminate; unfold example_change; cbn [Nat.eqb andb]; [now apply (W 0 m)|]. injection E as <- <-.
    destruct (c_mine (s 1) =? 0); [|now apply (W 1 false)]. cbn. destruct (c_excl (s 1)) as [[|]|]; try constructor. now apply (W 1 false). }
  split; [|repeat split; repeat constructor].
  intros s id. unfold example_change, held. destruct (id =? 1); cbn [andb]; [|tauto]. destruct (Nat.eqb_spec (c_mine (s id)) 0) as [E|E]; [|tauto].
  cbn. rewrite E. destruct (c_excl (s id)) as [[|]|]; intuition (congruence || lia || discriminate).
Qed.

(** ** C66 *)

(** Whatever other threads do, serialisation takes the course specified, with at most one
    attempt and one release for each lock of the type: no attempt waits or is repeated. *)
Theorem C66_course :
  forall (X R : Type) (inner : X -> outcome R) ty w v s env r s' tr env',
    fits ty w v -> well_typed ty s -> Forall (keeps_types ty) env -> ser inner w v s env = (r, s', tr, env') ->
    course inner tr r /\ List.length tr <= 2 * lock_depth w + 1.
Proof. intros. destruct (ser_course inner ty w _ _ _ _ _ _ _ H H0 H1 H2) as (A & _ & _ & B). auto. Qed.
Print Assumptions C66_course.

(** Afterwards this thread holds the guards it held before. *)
Theorem C66_guards_returned :
  forall (X R : Type) (inner : X -> outcome R) w v s env r s' tr env',
    Forall respects env -> ser inner w v s env = (r, s', tr, env') -> same_guards s s'.
Proof. intros. now destruct (ser_frame inner w _ _ _ _ _ _ _ H H0) as (_ & A & _). Qed.
Print Assumptions C66_guards_returned.

(** With nothing else running, all locks are as before; if the innermost serialisation
    panics, the mutexes on the way are poisoned, and that is all. *)
Theorem C66_unchanged :
  forall (X R : Type) (inner : X -> outcome R) ty w v s ids x r s' tr env',
    fits ty w v -> well_typed ty s -> leads s w v ids x -> ser inner w v s [] = (r, s', tr, env') ->
    (r <> Panic -> forall id, s' id = s id) /\
    (r = Panic -> forall id, (In (true, id) ids -> s' id = poison (s id)) /\ (~ In (true, id) ids -> s' id = s id)).
Proof.
  intros X R inner ty w v s ids x r s' tr env' T W L E. destruct (ser_alone inner ty w v s ids x T W L) as (r1 & s1 & tr1 & E1 & _ & _ & A & B).
  rewrite E in E1. injection E1 as <- <- <- ->. split; [intros N; apply A; now destruct r|intros ->; now apply B].
Qed.
Print Assumptions C66_unchanged.

(** A mutex whose content once panicked when serialised can not be serialised any more. *)
Theorem C66_state_as_before_refuted :
  exists (s : store nat) (s' : store nat) tr env',
    granted true (s 0) /\ ser (R := nat) (fun _ => Panic) (CMutex CType) (VMutex 0) s [] = (Panic, s', tr, env') /\
    forall inner : nat -> outcome nat, fst (fst (fst (ser inner (CMutex CType) (VMutex 0) s' []))) = Err (lit "poisoned lock: another task failed inside").
Proof. exists (fun _ => new_cell (VLeaf 3)). do 3 eexists. split; [repeat split|]. split; [reflexivity|]. reflexivity. Qed.
Print Assumptions C66_state_as_before_refuted.

(** A read-write lock that is neither write-locked nor poisoned can still be refused, while
    threads are queued for it. *)
Theorem C66_write_locked_refuted :
  exists (s : store nat), c_excl (s 0) = None /\ c_poison (s 0) = false /\
    forall inner : nat -> outcome nat, fst (fst (fst (ser inner (CRwLock CType) (VRwLock 0) s []))) = Err (lit "try_lock failed because the operation would block").
Proof.
  exists (fun _ => {| c_excl := None; c_mine := 0; c_others := 1; c_queued := true; c_poison := false; c_content := VLeaf 3 |}). repeat split.
Qed.
Print Assumptions C66_write_locked_refuted.

(** The mutex is held elsewhere; the outer lock is given back. *)
Example C66_example :
  let s : store nat := fun id => {| c_excl := if id =? 1 then Some false else None; c_mine := 0; c_others := 0; c_queued := false; c_poison := false;
                                    c_content := if id =? 0 then VRefMut (VMutex 1) else VLeaf 5 |} in
  let '(r, s', tr, _) := ser (fun x => Ret x) (CRwLock (CRefMut (CMutex CType))) (VRwLock 0) s [] in
  r = Err (lit "try_lock failed because the operation would block") /\ s' 0 = s 0 /\ s' 1 = s 1 /\
  tr = [ETry false 0 (s 0) true; ETry true 1 (s 1) false; ERelease false 0] /\ course (fun x : nat => Ret x) tr r.
Proof.
  cbv zeta. cbn [ser interfere tl try_read try_lock c_excl c_queued c_poison c_content Nat.eqb set read_lock]. repeat split; try reflexivity.
  apply (cr_taken _ false 0 _ [ETry true 1 _ false]); [repeat split|]. constructor. constructor. discriminate.
Qed.
