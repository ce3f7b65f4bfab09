(** How a command is shown in messages. *)
From Coq Require Import String List Ascii Bool Arith NArith Lia.
From Verif Require Import Base.
Import ListNotations.

(** A digit of [\x..] (std). *)
Definition hex_digit (n : N) : ascii := ascii_of_N (if (n <? 10)%N then 48 + n else 87 + n).

(** [core::ascii::escape_default] (std): how a byte is shown. *)
Definition escape_byte (c : ascii) : str :=
  let n := N_of_ascii c in
  let bs := ascii_of_N 92 in
  if (n =? 9)%N then [bs; "t"%char]
  else if (n =? 13)%N then [bs; "r"%char]
  else if (n =? 10)%N then [bs; "n"%char]
  else if (n =? 39)%N || (n =? 34)%N || (n =? 92)%N then [bs; c]
  else if (32 <=? n)%N && (n <=? 126)%N then [c]
  else [bs; "x"%char; hex_digit (n / 16); hex_digit (n mod 16)].

(** The [Debug] text of a program or an argument, which are C strings (std). *)
Definition dquote : ascii := ascii_of_N 34.
Definition quoted (w : bytes) : str := dquote :: flat_map escape_byte w ++ [dquote].

(** The [Debug] text of a [Command] that sets no variables and no directory (std), as used in
    cargo-test-fuzz/src/lib.rs:1518-1523: [TestFuzz::command] (127-142) adds variables only with
    [--coverage].  Simplification: versions of std since 1.86 show bytes of multi-byte characters
    as the character. *)
Definition words_text (program : bytes) (args : list bytes) : str := join [" "%char] (map quoted (program :: args)).

(** * Such a text says which command it is *)

(** [x] begins with [y]. *)
Fixpoint begins (x y : str) : bool :=
  match y, x with
  | [], _ => true
  | b :: y', a :: x' => (a =? b)%char && begins x' y'
  | _, _ => false
  end.
Definition all_bytes : list ascii := map (fun n => ascii_of_N (N.of_nat n)) (seq 0 256).

Lemma all_bytes_all c : In c all_bytes.
Proof.
  unfold all_bytes. apply in_map_iff. exists (N.to_nat (N_of_ascii c)). rewrite N2Nat.id, ascii_N_embedding. split; [reflexivity|].
  apply in_seq. pose proof (N_ascii_bounded c). lia.
Qed.

Lemma begins_spec x y a b : x ++ a = y ++ b -> begins x y = true \/ begins y x = true.
Proof.
  revert y. induction x as [|c x IH]; intros [|d y] E; cbn; auto. injection E as -> E. rewrite Ascii.eqb_refl. now apply IH.
Qed.

Lemma escape_prefix_free : forallb (fun b => forallb (fun c => Ascii.eqb b c || negb (begins (escape_byte b) (escape_byte c) || begins (escape_byte c) (escape_byte b))) all_bytes) all_bytes = true.
Proof. vm_compute. reflexivity. Qed.

Lemma escape_byte_inj b c x y : escape_byte b ++ x = escape_byte c ++ y -> b = c /\ x = y.
Proof.
  intros E. pose proof escape_prefix_free as P. rewrite forallb_forall in P. specialize (P b (all_bytes_all b)). rewrite forallb_forall in P.
  specialize (P c (all_bytes_all c)). destruct (Ascii.eqb_spec b c) as [->|N]; [split; [reflexivity|now apply app_inv_head in E]|].
  exfalso. cbn [orb] in P. apply negb_true_iff, orb_false_iff in P as [P1 P2]. apply begins_spec in E as [E|E]; congruence.
Qed.

Lemma escape_no_quote : forallb (fun b => match escape_byte b with [] => false | c :: _ => negb (Ascii.eqb c dquote) end) all_bytes = true.
Proof. vm_compute. reflexivity. Qed.

Lemma escape_byte_starts b : exists c s, escape_byte b = c :: s /\ c <> dquote.
Proof.
  pose proof escape_no_quote as P. rewrite forallb_forall in P. specialize (P b (all_bytes_all b)).
  destruct (escape_byte b) as [|c s]; [discriminate|]. exists c, s. split; [reflexivity|]. intros ->. rewrite Ascii.eqb_refl in P. discriminate.
Qed.

Lemma quoted_inj v w x y : quoted v ++ x = quoted w ++ y -> v = w /\ x = y.
Proof.
  unfold quoted. cbn [app]. intros E. injection E as E. rewrite <- !app_assoc in E. cbn [app] in E. revert w E.
  induction v as [|b v IH]; intros [|c w] E; cbn [flat_map app] in E.
  - injection E as ->. auto.
  - destruct (escape_byte_starts c) as (d & s & S & N). rewrite S in E. cbn [app] in E. exfalso. apply N. congruence.
  - destruct (escape_byte_starts b) as (d & s & S & N). rewrite S in E. cbn [app] in E. exfalso. apply N. congruence.
  - rewrite <- !app_assoc in E. apply escape_byte_inj in E as (-> & E). apply IH in E as (-> & ->). auto.
Qed.

Lemma words_text_inj p a q b : words_text p a = words_text q b -> p = q /\ a = b.
Proof.
  unfold words_text. revert p q b. induction a as [|w a IH]; intros p q [|v b] E; cbn [map join] in E.
  - rewrite <- (app_nil_r (quoted p)), <- (app_nil_r (quoted q)) in E. apply quoted_inj in E as (-> & _). auto.
  - exfalso. rewrite <- (app_nil_r (quoted p)) in E. apply quoted_inj in E as (_ & E). discriminate.
  - exfalso. rewrite <- (app_nil_r (quoted q)) in E. apply quoted_inj in E as (_ & E). discriminate.
  - apply quoted_inj in E as (-> & E). injection E as E. destruct (IH w v b E) as (-> & ->). auto.
Qed.
