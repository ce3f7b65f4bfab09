(** Theorems about recording hash sets (C136). *)
From Coq Require Import List Ascii String Bool Arith Lia NArith Permutation.
From Verif Require Import Base Utf8 Serde SerdeFacts SetArgs PropsSerde.
From Verif Require Postcard Bincode.
Import ListNotations.

Lemma bounded_length (b : N) (l : list N) : NoDup l -> Forall (fun n => (n < b)%N) l -> (N.of_nat (List.length l) <= b)%N.
Proof.
  intros D B. assert (I : incl (map N.to_nat l) (seq 0 (N.to_nat b))).
  { intros x J. apply in_map_iff in J as (n & <- & J). rewrite Forall_forall in B. specialize (B n J). apply in_seq. lia. }
  assert (D' : NoDup (map N.to_nat l)) by (apply FinFun.Injective_map_NoDup; [intros x y; apply N2Nat.inj|exact D]).
  apply NoDup_incl_length in I; [|exact D']. rewrite map_length, seq_length in I. lia.
Qed.

Lemma nodup_app {A} (l m : list A) : NoDup l -> NoDup m -> (forall x, In x l -> In x m -> False) -> NoDup (l ++ m).
Proof.
  intros D M X. induction D as [|x l N D IH]; [exact M|]. cbn. constructor.
  - intros J. apply in_app_iff in J as [J|J]; [contradiction|]. apply (X x); [now left|exact J].
  - apply IH. intros y J. apply X. now right.
Qed.

Lemma set_wt env order i : a_set order -> (i < 2 ^ 64)%N -> wt env set_call_ty (set_call order i).
Proof.
  intros S I. pose proof (bounded_length _ order (proj1 S) (proj2 S)) as L. destruct S as (_ & B). unfold set_call, set_call_ty. constructor. constructor; [|constructor; [constructor; exact I|constructor]].
  constructor.
  - unfold fits_len. rewrite map_length. assert (2 ^ 32 < 2 ^ 64)%N by (apply N.pow_lt_mono_r; lia). lia.
  - apply Forall_map. eapply Forall_impl; [|exact B]. intros n H. constructor. exact H.
Qed.

Lemma set_call_inj o o' i i' : set_call o i = set_call o' i' -> o = o' /\ i = i'.
Proof.
  intros E. unfold set_call in E. injection E as E ->. split; [|reflexivity]. revert o' E. induction o as [|n o IH]; intros [|n' o'] E; try discriminate E; [reflexivity|].
  cbn in E. injection E as -> E. f_equal. now apply IH.
Qed.

(** Two calls are recorded alike, in either format, exactly if the sets have the same elements in the
    same order and the numbers are the same. *)
Theorem C136_alike :
  forall (z k : bool) (o o' : list N) (i i' : N),
    a_set o -> a_set o' -> (i < 2 ^ 64)%N -> (i' < 2 ^ 64)%N ->
    (Postcard.serialize z k (set_call o i) = Postcard.serialize z k (set_call o' i') <-> o = o' /\ i = i') /\
    (Bincode.serialize (set_call o i) = Bincode.serialize (set_call o' i') <-> o = o' /\ i = i').
Proof.
  intros z k o o' i i' S S' I I'. pose (env := fun _ : nat => TUnit). pose proof (set_wt env o i S I) as W. pose proof (set_wt env o' i' S' I') as W'.
  split; (split; [intros E; apply set_call_inj|intros (-> & ->); reflexivity]).
  - apply (C15_injective z k env set_call_ty _ _ [] [] W W'). now rewrite E.
  - apply (C18_injective env set_call_ty _ _ [] [] W W'). now rewrite E.
Qed.
Print Assumptions C136_alike.

(** So every run of the test whose set has an order that no earlier run had adds a file for each
    thread that records. *)
Theorem C136_grows :
  forall (z k : bool) (orders : list (list N)) (ran : list N),
    NoDup orders -> Forall a_set orders -> NoDup ran -> Forall (fun i => (i < 2 ^ 64)%N) ran ->
    NoDup (map (Postcard.serialize z k) (flat_map (fun o => set_test o ran) orders)) /\
    List.length (flat_map (fun o => set_test o ran) orders) = List.length orders * List.length ran.
Proof.
  intros z k orders ran D S R B. split.
  - induction D as [|o os N D IH]; [constructor|]. inversion S as [|x l So Ss]; subst. cbn [flat_map]. rewrite map_app. specialize (IH Ss).
    assert (Do : NoDup (map (Postcard.serialize z k) (set_test o ran))).
    { unfold set_test. clear IH D. induction R as [|i l Ni R IHR]; [constructor|]. inversion B as [|x m Bi Bs]; subst. cbn [map]. constructor; [|now apply IHR].
      intros J. rewrite map_map in J. apply in_map_iff in J as (j & E & J). rewrite Forall_forall in Bs.
      apply (C136_alike z k o o j i So So (Bs j J) Bi) in E as (_ & ->). contradiction. }
    apply nodup_app; [exact Do|exact IH|]. intros x J J'. unfold set_test in J. rewrite map_map in J. apply in_map_iff in J as (i & <- & J).
    apply in_map_iff in J' as (v & E & J'). apply in_flat_map in J' as (o' & O' & J'). apply in_map_iff in J' as (i' & <- & J').
    rewrite Forall_forall in B, Ss. apply (C136_alike z k o' o i' i (Ss o' O') So (B i' J') (B i J)) in E as (-> & _). contradiction.
  - clear. induction orders as [|o os IH]; [reflexivity|]. cbn [flat_map]. rewrite app_length, IH. unfold set_test. rewrite map_length. cbn. lia.
Qed.
Print Assumptions C136_grows.

(** What is read back has the members of the set, in whichever order they were recorded, so the files
    of one set stand for equal arguments. *)
Theorem C136_read :
  forall (z : bool) (o : list N) (i : N) (env : nat -> ty),
    a_set o -> (i < 2 ^ 64)%N ->
    exists f, forall g, f <= g ->
    exists v m,
      Postcard.deserialize z false env g set_call_ty (Postcard.serialize z false (set_call o i)) = Postcard.Value v /\
      members v = Some m /\ forall x, m x = true <-> In x o.
Proof.
  intros z o i env S I. destruct (C14_round_trip z env set_call_ty (set_call o i) [] (set_wt env o i S I)) as (f & F).
  { assert (E : strings (set_call o i) = []).
    { cbn. rewrite app_nil_r. induction o as [|n o IH]; [reflexivity|]. cbn. apply IH. destruct S as (D & B). inversion D; inversion B; now split. }
    rewrite E. constructor. }
  exists f. intros g G. exists (set_call o i). unfold set_call at 3, members. eexists. split; [|split; [reflexivity|]].
  - rewrite <- (F g G). now rewrite app_nil_r.
  - intros x. rewrite existsb_exists. split.
    + intros (v & J & T). apply in_map_iff in J as (n & <- & J). apply N.eqb_eq in T. now subst.
    + intros J. exists (VUInt W32 x). split; [now apply in_map|apply N.eqb_refl].
Qed.
Print Assumptions C136_read.

(** That equal arguments are recorded in one file does not hold for sets: here are two orders of one
    set, with different files, for which moreover the target shows different things. *)
Theorem C136_once_refuted :
  exists (o o' : list N) (i : N),
    a_set o /\ a_set o' /\ Permutation o o' /\
    (forall z k, Postcard.serialize z k (set_call o i) <> Postcard.serialize z k (set_call o' i)) /\
    shown_element o i <> shown_element o' i.
Proof.
  assert (S : a_set [0; 1]%N) by (split; [repeat constructor; cbn; intuition discriminate|repeat constructor]).
  assert (S' : a_set [1; 0]%N) by (split; [repeat constructor; cbn; intuition discriminate|repeat constructor]).
  exists [0; 1]%N, [1; 0]%N, 0%N. split; [exact S|]. split; [exact S'|]. split; [constructor|]. split; [|discriminate].
  intros z k E. apply (C136_alike z k _ _ 0 0 S S') in E as (E & _); [discriminate E|reflexivity|reflexivity].
Qed.
Print Assumptions C136_once_refuted.

(** Two runs of the test, in which the first two of three threads record. *)
Example C136_example :
  map (Postcard.serialize true false) (flat_map (fun o => set_test o [0; 1]%N) [[0; 2; 1]; [300; 0; 1]]%N) =
    map (map (fun n => ascii_of_nat n)) [[3; 0; 2; 1; 0]; [3; 0; 2; 1; 1]; [3; 172; 2; 0; 1; 0]; [3; 172; 2; 0; 1; 1]].
Proof. vm_compute. reflexivity. Qed.
