(** Theorems about the test that replays crashes (C132). *)
From Coq Require Import Ascii String List Bool Arith NArith Lia ZifyBool ZifyN ZifyNat.
From Verif Require Import Base Decimal AllocTest.
Import ListNotations.
Local Open Scope N_scope.

Lemma number_digits s : Forall is_digit s -> number s = (s, []).
Proof. induction 1 as [|c s D F IH]; cbn [number]; [reflexivity|]. rewrite IH. unfold is_digit in D. replace ((48 <=? N_of_ascii c) && (N_of_ascii c <=? 57)) with true by lia. reflexivity. Qed.

Lemma dec_digits n : Forall is_digit (dec n) /\ dec n <> [] /\ value (dec n) = n.
Proof. pose proof (dec_numeral n) as H. unfold numeral in H. tauto. Qed.

(** The limit for the fuzzer is given in kibibytes and understood as mebibytes, so that it is 1024
    times the limit for the replay. *)
Theorem C132_given :
  forall limit : N, 1024 * 5 <= limit -> afl_bytes (limit_arg limit) = Some (1024 * (limit - limit mod 1024)).
Proof.
  intros limit L. unfold afl_bytes, afl_memory, limit_arg. destruct (dec_digits (limit / 1024)) as (D & N & V). rewrite (number_digits _ D).
  destruct (dec (limit / 1024)) as [|c s] eqn:E; [contradiction|]. rewrite V.
  assert (5 <= limit / 1024) by (apply N.div_le_lower_bound; lia). replace (limit / 1024 <? 5) with false by lia.
  f_equal. pose proof (N.div_mod limit 1024 ltac:(lia)). lia.
Qed.
Print Assumptions C132_given.

(** So the two are not the same: some allocations fail when they are replayed but not while fuzzing. *)
Theorem C132_same_refuted :
  exists b n, afl_bytes (limit_arg memory_limit) = Some b /\ target b 0 n = Fine /\ target memory_limit 0 n <> Fine.
Proof. exists (1024 * memory_limit), (memory_limit + 1). split; [|split]; vm_compute; [reflexivity|reflexivity|discriminate]. Qed.
Print Assumptions C132_same_refuted.

(** The two limits of the test, 8 GiB and 8 TiB. *)
Theorem C132_limits :
  memory_limit = 2 ^ 33 /\ afl_bytes (limit_arg memory_limit) = Some (2 ^ 43).
Proof. split; vm_compute; reflexivity. Qed.
Print Assumptions C132_limits.

Lemma value_bound s : Forall is_digit s -> value s < 10 ^ N.of_nat (List.length s).
Proof.
  assert (G : forall s v, Forall is_digit s -> fold_left (fun v c => 10 * v + digit_value c) s v < (v + 1) * 10 ^ N.of_nat (List.length s)).
  { clear s. induction s as [|c s IH]; intros v F; [cbn; lia|]. inversion F as [|x l D F']; subst. cbn [fold_left List.length].
    rewrite Nat2N.inj_succ, N.pow_succ_r'. specialize (IH (10 * v + digit_value c) F'). unfold is_digit in D. unfold digit_value in *.
    assert (0 < 10 ^ N.of_nat (List.length s)) by (apply N.neq_0_lt_0, N.pow_nonzero; lia). nia. }
  intros F. specialize (G s 0 F). unfold value. lia.
Qed.

(** Every crash of the fuzzer is found when it is replayed, however much memory is in use, as long as
    what is in use while fuzzing is not nearly all of the limit. *)
Theorem C132_replayed :
  forall (word_end word_start : str -> bool) (limit b used used' n : N) (before after : str),
    10 ^ 9 <= limit -> afl_bytes (limit_arg limit) = Some b -> used + limit <= b ->
    target b used n <> Fine ->
    word_end before = false -> word_start after = false ->
    target limit used' n <> Fine /\ finds_crash word_end word_start (before ++ message (target limit used' n) ++ after).
Proof.
  intros we ws limit b used used' n be af L B U T W1 W2.
  assert (C : 2 ^ 63 <= n \/ (n < 2 ^ 63 /\ n <> 0 /\ b < used + n)).
  { unfold target in T. destruct (N.leb_spec (2 ^ 63) n); [now left|right]. destruct (N.eqb_spec n 0); [contradiction|]. destruct (N.ltb_spec b (used + n)); [auto|contradiction]. }
  destruct C as [C|(C1 & C2 & C3)].
  - assert (E : target limit used' n = Overflow) by (unfold target; destruct (N.leb_spec (2 ^ 63) n); [reflexivity|lia]).
    rewrite E. split; [discriminate|]. exists be, (lit "capacity overflow"), af. auto.
  - assert (E : target limit used' n = Failed n).
    { unfold target. destruct (N.leb_spec (2 ^ 63) n); [lia|]. destruct (N.eqb_spec n 0); [contradiction|]. destruct (N.ltb_spec limit (used' + n)); [reflexivity|lia]. }
    rewrite E. split; [discriminate|]. exists be, (message (Failed n)), af. split; [reflexivity|]. split; [exact W1|]. split; [exact W2|]. right. exists (dec n).
    destruct (dec_digits n) as (D & _ & V). split; [reflexivity|]. split; [exact D|]. pose proof (value_bound (dec n) D) as Q. rewrite V in Q.
    destruct (le_lt_dec 10 (List.length (dec n))) as [G|G]; [exact G|exfalso].
    assert (10 ^ N.of_nat (List.length (dec n)) <= 10 ^ 9) by (apply N.pow_le_mono_r; lia). lia.
Qed.
Print Assumptions C132_replayed.

(** With the limit in mebibytes it would not be so: what is in use need not be the same, and then a
    crash of the fuzzer can be none when it is replayed. *)
Theorem C132_mebibytes_refuted :
  exists b used used' n,
    afl_bytes (dec (memory_limit / 1024 / 1024)) = Some b /\ b = memory_limit /\
    target b used n <> Fine /\ target memory_limit used' n = Fine.
Proof. exists memory_limit, 1048576, 65536, (memory_limit - 65536). split; [|split; [|split]]; vm_compute; try reflexivity; discriminate. Qed.
Print Assumptions C132_mebibytes_refuted.

(** The limits of the test; a crash of the fuzzer; one that would be replayed with too few digits if
    nearly everything was in use. *)
Example C132_example :
  limit_arg memory_limit = lit "8388608" /\
  afl_bytes (limit_arg memory_limit) = Some 8796093022208 /\
  message (target 8796093022208 4096 8796093022208) = lit "memory allocation of 8796093022208 bytes failed" /\
  message (target memory_limit 100 (2 ^ 63)) = lit "capacity overflow" /\
  message (target memory_limit (memory_limit - 9) 10) = lit "memory allocation of 10 bytes failed" /\
  afl_memory (lit "8G") = Some 8192 /\ afl_memory (lit "4096k") = None /\ afl_memory (lit "x") = None.
Proof. vm_compute. repeat split. Qed.
