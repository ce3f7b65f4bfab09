(** Decimal notation of natural numbers ([u64::to_string] and [{}] of std). *)
From Coq Require Import String List Ascii Bool Arith NArith Lia.
From Verif Require Import Base.
Import ListNotations.

Definition digit_char (d : N) : ascii := ascii_of_N (48 + d).

(** Digits of [n], most significant first, before [acc]; [fuel] bounds their number. *)
Fixpoint dec_loop (fuel : nat) (n : N) (acc : str) : str :=
  match fuel with
  | 0 => acc
  | S fuel' =>
      let acc := digit_char (n mod 10) :: acc in
      if (n / 10 =? 0)%N then acc else dec_loop fuel' (n / 10) acc
  end.

(** [ToString for u64] (std).  Not restricted to 64 bits. *)
Definition dec (n : N) : str := dec_loop (S (N.to_nat (N.log2 n))) n [].

(** * Specification: reading a decimal numeral *)

Definition is_digit (c : ascii) : Prop := (48 <= N_of_ascii c <= 57)%N.
Definition digit_value (c : ascii) : N := (N_of_ascii c - 48)%N.
Definition value (s : str) : N := fold_left (fun v c => (10 * v + digit_value c)%N) s 0%N.

(** [s] is the usual decimal numeral of [n]: digits only, no superfluous leading zero. *)
Definition numeral (n : N) (s : str) : Prop :=
  s <> [] /\ Forall is_digit s /\ value s = n /\ (forall t, s = "0"%char :: t -> t = []).

(** * Proofs *)

Lemma digit_char_N d : (d < 10)%N -> N_of_ascii (digit_char d) = (48 + d)%N.
Proof. intros H. unfold digit_char. apply N_ascii_embedding. lia. Qed.

Lemma digit_char_value d : (d < 10)%N -> digit_value (digit_char d) = d.
Proof. intros H. unfold digit_value. rewrite digit_char_N by exact H. lia. Qed.

Lemma digit_char_is d : (d < 10)%N -> is_digit (digit_char d).
Proof. intros H. unfold is_digit. rewrite digit_char_N by exact H. lia. Qed.

Definition from (v : N) (s : str) : N := fold_left (fun v c => (10 * v + digit_value c)%N) s v.

Lemma dec_loop_spec fuel : forall n acc,
  (n < 2 ^ N.of_nat fuel)%N -> fuel <> 0 ->
  exists ds, dec_loop fuel n acc = ds ++ acc /\ ds <> [] /\ Forall is_digit ds /\
    (forall v, from v ds = v * 10 ^ N.of_nat (List.length ds) + n)%N /\
    (forall t, ds = "0"%char :: t -> t = [] /\ n = 0%N).
Proof.
  induction fuel as [|fuel IH]; intros n acc L Z; [contradiction|]. clear Z.
  cbn [dec_loop]. assert (M : (n mod 10 < 10)%N) by (apply N.mod_lt; discriminate).
  assert (D : (n = 10 * (n / 10) + n mod 10)%N) by (apply N.div_mod; discriminate).
  destruct (n / 10 =? 0)%N eqn:E.
  - apply N.eqb_eq in E. exists [digit_char (n mod 10)]. split; [reflexivity|]. split; [discriminate|].
    split; [repeat constructor; now apply digit_char_is|]. split.
    + intros v. cbn [from fold_left List.length]. rewrite digit_char_value by exact M.
      change (N.of_nat 1) with 1%N. rewrite N.pow_1_r. lia.
    + intros t H. injection H as H1 H2. split; [now symmetry|].
      assert (Q : N_of_ascii (digit_char (n mod 10)) = 48%N) by (rewrite H1; reflexivity).
      rewrite digit_char_N in Q by exact M. lia.
  - apply N.eqb_neq in E.
    assert (L' : (n / 10 < 2 ^ N.of_nat fuel)%N).
    { rewrite Nat2N.inj_succ, N.pow_succ_r' in L. apply N.div_lt_upper_bound; lia. }
    assert (Z : fuel <> 0).
    { intros ->. cbn in L'. lia. }
    destruct (IH (n / 10)%N (digit_char (n mod 10) :: acc) L' Z) as (ds & -> & Ne & F & V & T).
    exists (ds ++ [digit_char (n mod 10)]). split; [now rewrite <- app_assoc|].
    split; [destruct ds; discriminate|]. split; [apply Forall_app; split; [exact F|repeat constructor; now apply digit_char_is]|].
    split.
    + intros v. unfold from in *. rewrite fold_left_app, V, app_length. cbn [fold_left List.length].
      rewrite digit_char_value by exact M. rewrite Nat2N.inj_add. change (N.of_nat 1) with 1%N.
      rewrite N.pow_add_r, N.pow_1_r. lia.
    + intros t H. destruct ds as [|d ds]; [contradiction|]. injection H as H1 H2.
      destruct (T ds) as [Q1 Q2]; [now rewrite H1|]. lia.
Qed.

Lemma dec_numeral n : numeral n (dec n).
Proof.
  unfold dec, numeral.
  destruct (dec_loop_spec (S (N.to_nat (N.log2 n))) n []) as (ds & E & Ne & F & V & T).
  - rewrite Nat2N.inj_succ, N2Nat.id. destruct n as [|p]; [reflexivity|].
    apply N.log2_spec. lia.
  - discriminate.
  - rewrite E, app_nil_r. split; [exact Ne|]. split; [exact F|]. split; [apply (V 0%N)|].
    intros t H. now apply T in H.
Qed.

Lemma dec_inj a b : dec a = dec b -> a = b.
Proof.
  intros E. destruct (dec_numeral a) as (_ & _ & <- & _). destruct (dec_numeral b) as (_ & _ & <- & _). now rewrite E.
Qed.

Example dec_example : dec 0 = lit "0" /\ dec 1200 = lit "1200" /\ dec 18446744073709551615 = lit "18446744073709551615".
Proof. vm_compute. auto. Qed.
