(** Theorems about the sample target that depends on its profile (C135). *)
From Coq Require Import Ascii String List Bool Arith NArith Lia.
From Verif Require Import Base Opts Profile.
Import ListNotations.

Lemma literal_plain p r : ~ In quote_char p -> ~ In backslash p -> ~ In CR p -> literal (p ++ quote_char :: r) = Some (p, r).
Proof.
  induction p as [|c p IH]; intros Q B C; cbn [app literal].
  - reflexivity.
  - destruct (ascii_dec c quote_char) as [->|_]; [destruct Q; now left|]. destruct (ascii_dec c CR) as [->|_]; [destruct C; now left|].
    destruct (ascii_dec c backslash) as [->|_]; [destruct B; now left|]. rewrite IH; [reflexivity| | |]; intros I; [apply Q|apply B|apply C]; now right.
Qed.

Lemma literal_short : forall n s v r, List.length s <= n -> literal s = Some (v, r) ->
  List.length v + 1 + List.length r <= List.length s /\
  (List.length v + 1 + List.length r = List.length s -> ~ In quote_char v /\ ~ In backslash v /\ ~ In CR v).
Proof.
  induction n as [|n IH]; intros s v r N L; (destruct s as [|c s]; [discriminate L|]); cbn [List.length] in *; [lia|]. cbn [literal] in L.
  destruct (ascii_dec c quote_char) as [->|Q]; [injection L as <- <-; cbn; split; [lia|tauto]|].
  destruct (ascii_dec c CR) as [->|C]; [discriminate|]. destruct (ascii_dec c backslash) as [->|B].
  - destruct s as [|e s]; [discriminate|].
    match type of L with match ?x with _ => _ end = _ => destruct x as [w|] end; [|discriminate].
    destruct (literal s) as [(vs, r')|] eqn:E; [|discriminate]. injection L as <- <-. cbn [List.length] in *. apply (IH s) in E; [|lia]. split; lia.
  - destruct (literal s) as [(vs, r')|] eqn:E; [|discriminate]. injection L as <- <-. cbn [List.length] in *. apply (IH s) in E as (E1 & E2); [|lia]. split; [lia|].
    intros X. destruct E2 as (E2 & E3 & E4); [lia|]. repeat split; intros [K|K]; congruence || contradiction.
Qed.

(** The constant is the profile exactly if that has no quotes, backslashes and carriage returns. *)
Theorem C135_constant :
  forall profile : str,
    constant (profile_rs profile) = Some profile <-> ~ In quote_char profile /\ ~ In backslash profile /\ ~ In CR profile.
Proof.
  intros p. unfold constant, profile_rs.
  assert (S : strip_prefix (lit "const PROFILE: &str = " ++ [quote_char]) (lit "const PROFILE: &str = " ++ [quote_char] ++ p ++ [quote_char] ++ lit ";" ++ [LF]) = Some (p ++ quote_char :: lit ";" ++ [LF])).
  { apply strip_prefix_spec. rewrite <- app_assoc. reflexivity. }
  rewrite S. split.
  - intros H. destruct (literal _) as [(v, r)|] eqn:L; [|discriminate]. destruct (str_eqb r (lit ";" ++ [LF])) eqn:R; [|discriminate]. injection H as ->. apply str_eqb_eq in R. subst r.
    apply (literal_short _ _ _ _ (le_n _)) in L as (_ & L). apply L. rewrite !app_length. cbn. lia.
  - intros (Q & B & C). rewrite literal_plain by assumption. rewrite str_eqb_refl. reflexivity.
Qed.
Print Assumptions C135_constant.

(** So the target of a build has an argument that crashes it exactly if a release was asked for, which
    is when the test expects a crash; and the recorded argument never crashes it. *)
Theorem C135_crashes :
  forall (o : opts) (profile : str),
    constant (profile_rs (cargo_profile o)) = Some profile ->
    ((exists x, target profile x = Panic) <-> o_release o = true) /\
    (expected (o_release o) = 1 <-> exists x, target profile x = Panic) /\ (expected (o_release o) = 0 <-> forall x, target profile x = Ret tt) /\
    target profile false = Ret tt.
Proof.
  intros o p E. assert (p = cargo_profile o) as ->.
  { assert (K : constant (profile_rs (cargo_profile o)) = Some (cargo_profile o)).
    { apply C135_constant. unfold cargo_profile. destruct (o_release o); vm_compute; intuition discriminate. }
    congruence. }
  unfold cargo_profile, expected. destruct (o_release o).
  - split; [split; [reflexivity|intros _; exists true; reflexivity]|]. split; [split; [intros _; exists true; reflexivity|reflexivity]|]. split; [|reflexivity]. split; [discriminate|]. intros H. specialize (H true). discriminate H.
  - assert (N : forall x, target (lit "debug") x = Ret tt) by (intros []; reflexivity).
    split; [split; [intros (x & K); rewrite N in K; discriminate|discriminate]|]. split; [split; [discriminate|intros (x & K); rewrite N in K; discriminate]|]. split; [|reflexivity]. split; [intros _; exact N|reflexivity].
Qed.
Print Assumptions C135_crashes.

(** The two profiles, and one that would not be read back. *)
Example C135_example :
  constant (profile_rs (lit "release")) = Some (lit "release") /\ constant (profile_rs (lit "debug")) = Some (lit "debug") /\
  constant (profile_rs (lit "a\nb")) = Some (lit "a" ++ [LF] ++ lit "b") /\ constant (profile_rs (lit "a" ++ [quote_char])) = None /\
  target (lit "release") true = Panic /\ target (lit "debug") true = Ret tt.
Proof. vm_compute. repeat split. Qed.
