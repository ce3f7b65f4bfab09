(** Theorems about the test of consolidating (C137). *)
From Coq Require Import List Ascii String Bool Arith Lia NArith Permutation.
From Verif Require Import Base Utf8 Serde Support PropsSupport ConsTest.
From Verif Require Postcard Bincode.
Import ListNotations.
Local Open Scope nat_scope.

Lemma add_new_in l : forall c b, In b (add_new c l) <-> In b c \/ In b l.
Proof.
  induction l as [|x l IH]; intros c b; [cbn; tauto|]. cbn [add_new]. rewrite IH. destruct (in_dec _ x c) as [I|I].
  - cbn. split; [tauto|]. intros [H|[->|H]]; auto.
  - rewrite in_app_iff. cbn. tauto.
Qed.
Lemma add_new_nodup l : forall c, NoDup c -> NoDup (add_new c l).
Proof.
  induction l as [|x l IH]; intros c D; [exact D|]. cbn [add_new]. apply IH. destruct (in_dec _ x c) as [I|I]; [exact D|].
  apply (Permutation_NoDup (l := x :: c)); [apply Permutation_cons_append|]. now constructor.
Qed.

(** After some attempts the corpus has what was recorded and everything found until then, each once. *)
Theorem C137_corpus :
  forall (x : bytes) (fuzz : nat -> found) (n : nat),
    NoDup (corpus_after x fuzz n) /\ forall b, In b (corpus_after x fuzz n) <-> b = x \/ found_by fuzz n b.
Proof.
  intros x fuzz n. induction n as [|n (D & IH)].
  - split; [cbn; constructor; [intros []|constructor]|]. intros b. cbn. split; [intros [->|[]]; now left|]. intros [->|(i & L & _)]; [now left|lia].
  - cbn [corpus_after]. split; [now apply add_new_nodup|]. intros b. rewrite add_new_in, IH. unfold all_found. rewrite !in_app_iff. split.
    + intros [[->|(i & L & H)]|H]; [now left|right; exists i; split; [lia|exact H]|right; exists (S n); split; [lia|tauto]].
    + intros [->|(i & L & H)]; [tauto|]. destruct (Nat.eq_dec i (S n)) as [->|N]; [right; tauto|]. left. right. exists i. split; [lia|exact H].
Qed.
Print Assumptions C137_corpus.

Lemma more_than_one (l : list bytes) x : NoDup l -> In x l -> (1 < List.length l <-> exists b, In b l /\ b <> x).
Proof.
  intros D I. split.
  - intros L. destruct l as [|a [|c l]]; cbn in L; try lia. inversion D as [|? ? N _]; subst. destruct (list_eq_dec ascii_dec a x) as [->|E].
    + exists c. split; [right; now left|]. intros ->. apply N. now left.
    + exists a. split; [now left|exact E].
  - intros (b & J & N). destruct l as [|a [|c l]]; cbn; try lia; [destruct I|]. destruct I as [->|[]], J as [->|[]]. contradiction.
Qed.

Lemma attempt_ok line order pattern x fuzz i :
  attempt line order pattern (corpus_after x fuzz i) = inl tt <->
  (exists b, found_by fuzz i b /\ b <> x) /\ contains pattern (List.concat (map line (order (corpus_after x fuzz i)))) = true.
Proof.
  destruct (C137_corpus x fuzz i) as (D & H). pose proof (more_than_one _ x D (proj2 (H x) (or_introl eq_refl))) as M.
  assert (E : (exists b, In b (corpus_after x fuzz i) /\ b <> x) <-> exists b, found_by fuzz i b /\ b <> x).
  { split; intros (b & I & N); exists b; (split; [|exact N]); [apply H in I as [->|I]; [contradiction|exact I]|apply H; now right]. }
  rewrite <- E, <- M. unfold attempt. destruct (1 <? _) eqn:L.
  - apply Nat.ltb_lt in L. destruct (contains _ _); split; (discriminate || tauto || (intros (_ & K); discriminate K)).
  - apply Nat.ltb_ge in L. split; [discriminate|intros (K & _); lia].
Qed.

(** The test succeeds exactly if after one of its at most three attempts something other than the
    recorded call has been found, and the text looked for is in what is displayed then. *)
Theorem C137_succeeds :
  forall (line : bytes -> str) (order : list bytes -> list bytes) (pattern : str) (x : bytes) (fuzz : nat -> found),
    consolidate_test line order pattern x fuzz = Ret tt <->
    exists i, 1 <= i <= 3 /\ (exists b, found_by fuzz i b /\ b <> x) /\
              occurs pattern (List.concat (map line (order (corpus_after x fuzz i)))).
Proof.
  intros line order pattern x fuzz. unfold consolidate_test. set (op := fun i => _).
  destruct (C94_retry _ _ 3 op) as [(E & _)|[(j & t & J & B & O & ws & R & _)|(e & _ & B & O & ws & R & _)]]; [discriminate E| |]; rewrite R; cbn [snd].
  - split; [intros _|reflexivity]. exists j. split; [exact J|]. destruct t. apply attempt_ok in O as (F & C). split; [exact F|now apply contains_spec].
  - split; [discriminate|]. intros (i & I & F & C). destruct (B i I) as (e' & E). apply contains_spec in C. pose proof (proj2 (attempt_ok line order pattern x fuzz i) (conj F C)) as K.
    unfold op in E. congruence.
Qed.
Print Assumptions C137_succeeds.

(** An attempt that fails complains that there is nothing new exactly if nothing but the recorded call
    has been found, and otherwise about what is displayed. *)
Theorem C137_complaint :
  forall (line : bytes -> str) (order : list bytes -> list bytes) (pattern : str) (x : bytes) (fuzz : nat -> found) (i : nat),
    (attempt line order pattern (corpus_after x fuzz i) = inr NothingNew <-> forall b, found_by fuzz i b -> b = x) /\
    (attempt line order pattern (corpus_after x fuzz i) = inr NoMatch <->
     (exists b, found_by fuzz i b /\ b <> x) /\ ~ occurs pattern (List.concat (map line (order (corpus_after x fuzz i))))).
Proof.
  intros line order pattern x fuzz i.
  assert (L : 1 < List.length (corpus_after x fuzz i) <-> exists b, found_by fuzz i b /\ b <> x).
  { pose proof (attempt_ok line order [] x fuzz i) as K. unfold attempt in K. assert (C : forall s, contains [] s = true) by (intros s; apply contains_spec; exists [], s; reflexivity).
    rewrite C in K. destruct (1 <? List.length (corpus_after x fuzz i)) eqn:E.
    - apply Nat.ltb_lt in E. split; [intros _; now apply K|intros _; exact E].
    - apply Nat.ltb_ge in E. split; [lia|]. intros F. destruct K as (_ & K). specialize (K (conj F eq_refl)). discriminate K. }
  destruct (C137_corpus x fuzz i) as (_ & M). unfold attempt. destruct (1 <? List.length (corpus_after x fuzz i)) eqn:E.
  - apply Nat.ltb_lt in E. apply L in E. split.
    + split; [now destruct (contains _ _)|]. intros H. destruct E as (b & F & N). now destruct (N (H b F)).
    + destruct (contains pattern _) eqn:C; (split; [intros K|intros (_ & K)]); try discriminate K; try reflexivity.
      * destruct K. now apply contains_spec.
      * split; [exact E|]. intros O. apply contains_spec in O. congruence.
  - apply Nat.ltb_ge in E. split; (split; [|try reflexivity]).
    + intros _ b F. destruct (list_eq_dec ascii_dec b x) as [->|N]; [reflexivity|]. assert (1 < List.length (corpus_after x fuzz i)) by (apply L; now exists b). lia.
    + discriminate.
    + intros (F & _). apply L in F. lia.
Qed.
Print Assumptions C137_complaint.

(** For hangs this means that anything new was found, in whichever of the directories. *)
Theorem C137_hangs :
  forall (line : bytes -> str) (order : list bytes -> list bytes) (x : bytes) (fuzz : nat -> found),
    consolidate_test line order hang_pattern x fuzz = Ret tt <-> exists b, found_by fuzz 3 b /\ b <> x.
Proof.
  intros line order x fuzz. rewrite C137_succeeds. split.
  - intros (i & I & (b & (j & J & F) & N) & _). exists b. split; [exists j; split; [lia|exact F]|exact N].
  - intros F. exists 3. split; [lia|]. split; [exact F|]. exists [], (List.concat (map line (order (corpus_after x fuzz 3)))). reflexivity.
Qed.
Print Assumptions C137_hangs.

(** So the test of consolidating hangs need not have seen one. *)
Theorem C137_hang_found_refuted :
  exists (line : bytes -> str) (order : list bytes -> list bytes) (x : bytes) (fuzz : nat -> found),
    consolidate_test line order hang_pattern x fuzz = Ret tt /\ forall i, f_hangs (fuzz i) = [] /\ f_crashes (fuzz i) = [].
Proof.
  exists (fun b => b), (fun l => l), (lit "x"), (fun _ => mkf [] [] [lit "y"]). split; [|now split].
  apply C137_hangs. exists (lit "y"). split; [exists 1; split; [lia|]; right; right; now left|discriminate].
Qed.
Print Assumptions C137_hang_found_refuted.

Lemma pieces_no_t decode l :
  (forall b, In b l -> decode b <> Postcard.Value (VTuple [VBool true])) -> ~ In "t"%char (List.concat (map (assert_line decode) l)).
Proof.
  intros H I. apply in_concat in I as (s & J & I). apply in_map_iff in J as (b & <- & J). specialize (H b J). unfold assert_line in I.
  destruct (decode b) as [v| |]; [|destruct I|destruct I]. destruct v; try (exfalso; exact I).
  destruct vs as [|[] [|? ?]]; try (exfalso; exact I). destruct b0; [now destruct H|].
  revert I. cbn. intuition discriminate.
Qed.

(** For crashes it means that something was found that is read as a call with [true], whichever of the
    two formats is used, if the entries are shown in some order. *)
Theorem C137_crashes :
  forall (decode : bytes -> Postcard.deserialized) (order : list bytes -> list bytes) (x : bytes) (fuzz : nat -> found),
    (forall c b, In b (order c) <-> In b c) -> decode x <> Postcard.Value (VTuple [VBool true]) ->
    (consolidate_test (assert_line decode) order crash_pattern x fuzz = Ret tt <->
     exists b, found_by fuzz 3 b /\ decode b = Postcard.Value (VTuple [VBool true])).
Proof.
  intros decode order x fuzz P X. rewrite C137_succeeds. split.
  - intros (i & I & _ & p & q & E).
    destruct (Exists_dec (fun b => decode b = Postcard.Value (VTuple [VBool true])) (order (corpus_after x fuzz i))) as [T|T].
    { intros b. destruct (decode b) as [[]| |]; try (right; discriminate). destruct vs as [|[] [|? ?]]; try (right; discriminate). destruct b0; [now left|right; discriminate]. }
    + apply Exists_exists in T as (b & J & T). apply (proj1 (P _ b)) in J. apply (C137_corpus x fuzz i) in J as [->|(j & J & F)]; [contradiction|].
      exists b. split; [exists j; split; [lia|exact F]|exact T].
    + exfalso. refine (pieces_no_t decode (order (corpus_after x fuzz i)) _ _).
      * intros b J K. apply T. apply Exists_exists. now exists b.
      * rewrite E. apply in_or_app. right. apply in_or_app. left. unfold crash_pattern. cbn. tauto.
  - intros (b & F & T). exists 3. split; [lia|]. split; [exists b; split; [exact F|intros ->; contradiction]|].
    assert (J : In b (order (corpus_after x fuzz 3))) by (apply (proj2 (P _ b)), (C137_corpus x fuzz 3); now right).
    apply in_split in J as (l & r & ->). rewrite map_app, concat_app. cbn [map List.concat]. unfold assert_line at 2. rewrite T.
    exists (List.concat (map (assert_line decode) l)), ([ascii_of_nat 10] ++ List.concat (map (assert_line decode) r)). unfold crash_pattern. reflexivity.
Qed.
Print Assumptions C137_crashes.

(** What is shown of an entry is the call, and nothing if it is not one. *)
Theorem C137_line :
  forall (decode : bytes -> Postcard.deserialized) (b : bytes),
    (decode b = Postcard.Value (VTuple [VBool true]) -> assert_line decode b = lit "Args { x: true }" ++ [ascii_of_nat 10]) /\
    (decode b = Postcard.Value (VTuple [VBool false]) -> assert_line decode b = lit "Args { x: false }" ++ [ascii_of_nat 10]) /\
    ((forall v, decode b <> Postcard.Value (VTuple [VBool v])) -> assert_line decode b = []).
Proof.
  intros decode b. unfold assert_line. split; [|split]; intros H; [rewrite H; reflexivity|rewrite H; reflexivity|].
  destruct (decode b) as [v| |]; try reflexivity. destruct v; try reflexivity. destruct vs as [|[] [|? ?]]; try reflexivity. now destruct (H b0).
Qed.
Print Assumptions C137_line.

(** An entry is read as the call with [true] exactly if its first byte is 1; what the sample records
    is not. *)
Theorem C137_read :
  forall (z k : bool) (env : nat -> ty) (g : nat) (b : bytes),
    let decoded := Postcard.Value (VTuple [VBool true]) in
    (Postcard.deserialize z k env (S (S g)) assert_ty b = decoded <-> exists r, b = ascii_of_nat 1 :: r) /\
    (Bincode.deserialize env (S (S g)) assert_ty b = decoded <-> exists r, b = ascii_of_nat 1 :: r) /\
    Postcard.deserialize z k env (S (S g)) assert_ty assert_recorded = Postcard.Value (VTuple [VBool false]).
Proof.
  intros z k env g b decoded. split; [|split; [|reflexivity]].
  - destruct b as [|[[] [] [] [] [] [] [] []] r]; [destruct z|..]; split; intros H; try (destruct H as (r' & [=])); try discriminate H; try (now exists r); try reflexivity.
  - destruct b as [|[[] [] [] [] [] [] [] []] r]; split; intros H; try (destruct H as (r' & [=])); try discriminate H; try (now exists r); try reflexivity.
Qed.
Print Assumptions C137_read.

(** The second attempt finds a crash; one that never leaves the recorded call fails. *)
Example C137_example :
  let decode := Postcard.deserialize true false (fun _ => TUnit) 2 assert_ty in
  let one := [ascii_of_nat 1] in let two := [ascii_of_nat 2] in
  let fuzz i := if i =? 2 then mkf [one] [] [assert_recorded] else mkf [] [] [assert_recorded; two] in
  corpus_after assert_recorded fuzz 3 = [assert_recorded; two; one] /\
  consolidate_test (assert_line decode) (fun l => rev l) crash_pattern assert_recorded fuzz = Ret tt /\
  consolidate_test (assert_line decode) (fun l => l) crash_pattern assert_recorded (fun _ => fuzz 1) = Panic /\
  consolidate_test (assert_line decode) (fun l => l) hang_pattern assert_recorded (fun _ => fuzz 1) = Ret tt /\
  consolidate_test (assert_line decode) (fun l => l) hang_pattern assert_recorded (fun _ => mkf [] [] [assert_recorded]) = Panic.
Proof. vm_compute. repeat split. Qed.
