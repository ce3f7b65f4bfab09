(** SHA-1 and hexadecimal encoding, as used to name corpus files
    (runtime/src/lib.rs:191-194: [hex::encode(Sha1::digest(data))]).
    SHA-1 follows FIPS 180-4; it is checked below against published vectors. *)
From Coq Require Import List Ascii String Bool Arith Lia NArith ZifyBool ZifyN ZifyNat.
From Verif Require Import Base Utf8.
Import ListNotations.

(** 32-bit word arithmetic (FIPS 180-4, 3.2). *)
Definition w32 (x : N) : N := N.land x 4294967295.
Definition addw (x y : N) : N := w32 (x + y).
Definition rotl (x : N) (n : N) : N := N.lor (w32 (N.shiftl x n)) (N.shiftr x (32 - n)).
Definition notw (x : N) : N := N.lxor x 4294967295.

(** [n] bytes of [x], big endian. *)
Fixpoint be_bytes (n : nat) (x : N) : bytes :=
  match n with
  | 0 => []
  | S n' => be_bytes n' (N.shiftr x 8) ++ [ascii_of_N (N.land x 255)]
  end.

(** Big-endian value of a byte string. *)
Definition be_value (l : bytes) : N := fold_left (fun acc c => N.lor (N.shiftl acc 8) (N_of_ascii c)) l 0%N.

(** Padding (FIPS 180-4, 5.1.1): 0x80, zeros, 64-bit length in bits. *)
Definition pad (msg : bytes) : bytes :=
  let len := List.length msg in
  let zeros := (119 - len mod 64) mod 64 in
  msg ++ [ascii_of_N 128] ++ repeat (ascii_of_N 0) zeros ++ be_bytes 8 (8 * N.of_nat len).

(** Split into pieces of [n] elements. *)
Fixpoint chunks_fuel {A} (fuel n : nat) (l : list A) : list (list A) :=
  match fuel, l with
  | _, [] => []
  | 0, _ => []
  | S f, _ => firstn n l :: chunks_fuel f n (skipn n l)
  end.
Definition chunks {A} (n : nat) (l : list A) : list (list A) := chunks_fuel (List.length l) n l.

(** Message schedule (FIPS 180-4, 6.1.2 step 1); newest word first. *)
Fixpoint extend_schedule (n : nat) (ws : list N) : list N :=
  match n with
  | 0 => ws
  | S n' =>
      let x := N.lxor (N.lxor (nth 2 ws 0%N) (nth 7 ws 0%N)) (N.lxor (nth 13 ws 0%N) (nth 15 ws 0%N)) in
      extend_schedule n' (rotl x 1 :: ws)
  end.
Definition schedule (block : bytes) : list N :=
  rev (extend_schedule 64 (rev (map be_value (chunks 4 block)))).

(** Round function and constant (FIPS 180-4, 4.1.1 and 4.2.1). *)
Definition fk (t : nat) (b c d : N) : N * N :=
  if t <? 20 then (N.lor (N.land b c) (N.land (notw b) d), 1518500249)%N
  else if t <? 40 then (N.lxor b (N.lxor c d), 1859775393)%N
  else if t <? 60 then (N.lor (N.land b c) (N.lor (N.land b d) (N.land c d)), 2400959708)%N
  else (N.lxor b (N.lxor c d), 3395469782)%N.

Definition state := (N * N * N * N * N)%type.

(** One round (FIPS 180-4, 6.1.2 step 3). *)
Definition round (s : state) (tw : nat * N) : state :=
  let '(a, b, c, d, e) := s in
  let '(f, k) := fk (fst tw) b c d in
  (addw (addw (rotl a 5) f) (addw (addw e k) (snd tw)), a, rotl b 30, c, d).

(** One block (FIPS 180-4, 6.1.2). *)
Definition compress (s : state) (block : bytes) : state :=
  let ws := schedule block in
  let '(a, b, c, d, e) := fold_left round (combine (seq 0 (List.length ws)) ws) s in
  let '(a0, b0, c0, d0, e0) := s in
  (addw a0 a, addw b0 b, addw c0 c, addw d0 d, addw e0 e).

(** Initial value (FIPS 180-4, 5.3.1). *)
Definition iv : state := (1732584193, 4023233417, 2562383102, 271733878, 3285377520)%N.

(** [Sha1::digest(data)] (sha1 0.11). *)
Definition sha1 (msg : bytes) : bytes :=
  let '(a, b, c, d, e) := fold_left compress (chunks 64 (pad msg)) iv in
  be_bytes 4 a ++ be_bytes 4 b ++ be_bytes 4 c ++ be_bytes 4 d ++ be_bytes 4 e.

(** A hexadecimal digit, lower case. *)
Definition hex_digit (n : N) : ascii :=
  if (n <? 10)%N then ascii_of_N (48 + n) else ascii_of_N (87 + n).

(** [hex::encode] (hex 0.4.3). *)
Definition hex (l : bytes) : str :=
  flat_map (fun c => [hex_digit (N.shiftr (byte c) 4); hex_digit (N.land (byte c) 15)]) l.

(** The name of the corpus file of [data] (runtime/src/lib.rs:191-195). *)
Definition corpus_name (data : bytes) : str := hex (sha1 data).

(** * Specification of hexadecimal names *)

(** The value of a lower-case hexadecimal digit. *)
Definition digit_value (c : ascii) : option N :=
  match list_ascii_of_string "0123456789abcdef" with
  | l => (fix go (l : list ascii) (n : N) := match l with
                                         | [] => None
                                         | d :: l' => if ascii_dec c d then Some n else go l' (n + 1)%N
                                         end) l 0%N
  end.

(** Reading a byte string back from its lower-case hexadecimal form. *)
Fixpoint unhex (s : str) : option bytes :=
  match s with
  | [] => Some []
  | h :: l :: s' =>
      match digit_value h, digit_value l, unhex s' with
      | Some a, Some b, Some r => Some (ascii_of_N (16 * a + b) :: r)
      | _, _, _ => None
      end
  | [_] => None
  end.

(** * Lemmas *)

Lemma be_bytes_length n x : List.length (be_bytes n x) = n.
Proof.
  revert x; induction n as [|n IH]; intros x; simpl; [reflexivity|].
  rewrite app_length, IH. simpl. lia.
Qed.

Lemma sha1_length msg : List.length (sha1 msg) = 20.
Proof.
  unfold sha1. destruct (fold_left compress _ _) as [[[[a b] c] d] e].
  rewrite !app_length, !be_bytes_length. reflexivity.
Qed.

Lemma hex_length l : List.length (hex l) = 2 * List.length l.
Proof. unfold hex. induction l as [|c l IH]; simpl; [reflexivity|]. simpl in IH. lia. Qed.

Lemma corpus_name_length data : List.length (corpus_name data) = 40.
Proof. unfold corpus_name. now rewrite hex_length, sha1_length. Qed.

Lemma byte_hex_ok c :
  match digit_value (hex_digit (N.shiftr (byte c) 4)), digit_value (hex_digit (N.land (byte c) 15)) with
  | Some a, Some b => ascii_of_N (16 * a + b) = c
  | _, _ => False
  end.
Proof. destruct c as [[] [] [] [] [] [] [] []]; vm_compute; reflexivity. Qed.

Lemma unhex_hex l : unhex (hex l) = Some l.
Proof.
  induction l as [|c l IH]; [reflexivity|].
  change (hex (c :: l)) with (hex_digit (N.shiftr (byte c) 4) :: hex_digit (N.land (byte c) 15) :: hex l).
  cbn [unhex]. rewrite IH. pose proof (byte_hex_ok c) as H.
  destruct (digit_value (hex_digit (N.shiftr (byte c) 4))); [|contradiction].
  destruct (digit_value (hex_digit (N.land (byte c) 15))); [|contradiction].
  now rewrite H.
Qed.

Lemma hex_inj a b : hex a = hex b -> a = b.
Proof. intros H. apply (f_equal unhex) in H. rewrite !unhex_hex in H. congruence. Qed.

Lemma corpus_name_inj a b : corpus_name a = corpus_name b <-> sha1 a = sha1 b.
Proof. unfold corpus_name. split; [apply hex_inj|congruence]. Qed.

(** The sixteen digits. *)
Definition is_hex_char (c : ascii) : Prop := In c (list_ascii_of_string "0123456789abcdef").

Lemma hex_chars l : Forall is_hex_char (hex l).
Proof.
  induction l as [|c l IH]; [constructor|].
  change (hex (c :: l)) with (hex_digit (N.shiftr (byte c) 4) :: hex_digit (N.land (byte c) 15) :: hex l).
  assert (H : is_hex_char (hex_digit (N.shiftr (byte c) 4)) /\ is_hex_char (hex_digit (N.land (byte c) 15))).
  { destruct c as [[] [] [] [] [] [] [] []]; vm_compute; split; tauto. }
  constructor; [apply H|constructor; [apply H|exact IH]].
Qed.

Lemma corpus_name_chars data : Forall is_hex_char (corpus_name data).
Proof. apply hex_chars. Qed.

(** Published test vectors (FIPS 180-4 examples, and the empty message). *)
Example sha1_empty : hex (sha1 []) = lit "da39a3ee5e6b4b0d3255bfef95601890afd80709".
Proof. vm_compute. reflexivity. Qed.
Example sha1_abc : hex (sha1 (lit "abc")) = lit "a9993e364706816aba3e25717850c26c9cd0d89d".
Proof. vm_compute. reflexivity. Qed.
Example sha1_two_blocks :
  hex (sha1 (lit "abcdbcdecdefdefgefghfghighijhijkijkljklmklmnlmnomnopnopq"))
  = lit "84983e441c3bd26ebaae4aa1f95129e5e54670f1".
Proof. vm_compute. reflexivity. Qed.
